(** Lemmas for C98 and C99: the loop. *)
From Verif Require Import S_tracked L_cache L_operators L_sampler L_source L_params L_tracked L_tracked2.
From Verif Require Import M_dist M_operators.
Set Implicit Arguments.
Unset Strict Implicit.
Close Scope R_scope.
Close Scope Q_scope.
Open Scope nat_scope.

(** * Two representations of samples *)
Section Simulation.
Variables X Y : Type.
Variable h : X -> Y.
Variable P : X -> Prop.
Variable ok : tdraw -> Prop.
Variable propX : nat -> choice -> X -> option (X * result X).
Variable propY : nat -> choice -> Y -> option (Y * result Y).
Variable evalX : nat -> X -> ext (X * xf * xf).
Variable evalY : nat -> Y -> ext (Y * xf * xf).
Hypothesis prop_ok : forall d x, P x -> ok d ->
  match propX (td_op d) (td_choice d) x with
  | None => propY (td_op d) (td_choice d) (h x) = None
  | Some (c, r) => exists c', propY (td_op d) (td_choice d) (h x) = Some (c', map_result h r) /\
      h (res_content c r) = res_content c' (map_result h r) /\ P (res_content c r) /\
      (res_aliased r = false -> h c = c' /\ P c)
  end.
Hypothesis eval_ok : forall i x, P x ->
  evalY i (h x) = ext_map (fun '(x, ll, p) => (h x, ll, p)) (evalX i x) /\
  (forall x' ll p, evalX i x = Done (x', ll, p) -> P x').

Definition PC (ch : chain X) : Prop := P (content (c_obj ch)).
Lemma map_res_q (r : result X) : res_q (map_result h r) = res_q r.
Proof. destruct r; reflexivity. Qed.
Lemma map_res_qb (r : result X) : res_q_back (map_result h r) = res_q_back r.
Proof. destruct r; reflexivity. Qed.
Lemma map_res_al (r : result X) : res_aliased (map_result h r) = res_aliased r.
Proof. destruct r; reflexivity. Qed.

Lemma step_sim ch d : PC ch -> ok d ->
  t_step propY evalY (map_chain h ch) d = ext_map (fun '(ch, a) => (map_chain h ch, a)) (t_step propX evalX ch d) /\
  (forall ch' a, t_step propX evalX ch d = Done (ch', a) -> PC ch').
Proof.
  intros HP Hd. unfold t_step. cbv zeta. pose proof (prop_ok HP Hd) as Hp. cbn [map_chain c_obj map_obj content i_step last_lh last_prior c_ll c_prior].
  destruct (propX (td_op d) (td_choice d) (content (c_obj ch))) as [[c r]|].
  2:{ rewrite Hp. cbn. split; [reflexivity|discriminate]. }
  destruct Hp as (c' & -> & Ec & Pr & Pc). rewrite <- Ec. destruct (eval_ok (i_step (c_obj ch)) Pr) as [-> Pe].
  destruct (evalX _ _) as [[[x ll] pr]| | |]; cbn [ext_map ebind]; try (split; [reflexivity|discriminate]).
  specialize (Pe _ _ _ eq_refl). rewrite map_res_q, map_res_qb, map_res_al.
  destruct (accept _ _ _ _ _ _ _) as [[]|]; cbn [ext_map].
  - split; [reflexivity|]. intros ch' a [= <- <-]. exact Pe.
  - split.
    + destruct (res_aliased r) eqn:E; [reflexivity|]. destruct (Pc eq_refl) as [<- _]. reflexivity.
    + intros ch' a [= <- <-]. unfold PC. cbn [c_obj]. destruct (res_aliased r) eqn:E; [exact Pe|]. apply (Pc eq_refl).
  - split; [reflexivity|discriminate].
Qed.
Lemma step_chains_sim i draws : (forall c, ok (draws c)) -> forall chs c st, Forall PC chs ->
  t_step_chains propY evalY i draws c (map (map_chain h) chs) st =
    ext_map (fun '(chs, st) => (map (map_chain h) chs, st)) (t_step_chains propX evalX i draws c chs st) /\
  (forall chs' st', t_step_chains propX evalX i draws c chs st = Done (chs', st') -> Forall PC chs').
Proof.
  intros Hd. induction chs as [|ch chs IH]; intros c st HP; cbn [t_step_chains map].
  - split; [reflexivity|]. intros chs' st' [= <- <-]. constructor.
  - inversion_clear HP as [|? ? H1 H2]. destruct (step_sim H1 (Hd c)) as [-> S2].
    destruct (t_step propX evalX ch (draws c)) as [[ch' a]| | |]; cbn [ext_map ebind]; try (split; [reflexivity|discriminate]).
    destruct (IH (Datatypes.S c) (register (td_op (draws c)) a st) H2) as [-> I2].
    destruct (t_step_chains propX evalX i draws (Datatypes.S c) chs _) as [[chs' st']| | |]; cbn [ext_map ebind]; try (split; [reflexivity|discriminate]).
    split; [reflexivity|]. intros chs2 st2 [= <- <-]. constructor; [|eapply I2; eauto]. exact (S2 _ _ eq_refl).
Qed.
Lemma step_all_sim i draws sm : (forall c, ok (draws c)) -> Forall PC (chains sm) ->
  t_step_all propY evalY i draws (map_sampler h sm) = ext_map (map_sampler h) (t_step_all propX evalX i draws sm) /\
  (forall sm', t_step_all propX evalX i draws sm = Done sm' -> Forall PC (chains sm')).
Proof.
  intros Hd HP. unfold t_step_all. cbn [map_sampler chains statistics].
  destruct (step_chains_sim i Hd 0 (statistics sm) HP) as [-> S2].
  destruct (t_step_chains propX evalX i draws 0 _ _) as [[chs st]| | |]; cbn [ext_map ebind]; try (split; [reflexivity|discriminate]).
  split; [reflexivity|]. intros sm' [= <-]. eapply S2; eauto.
Qed.
Lemma init_sim n_ops ss : Forall P ss ->
  t_init evalY n_ops (map h ss) = ext_map (map_sampler h) (t_init evalX n_ops ss) /\
  (forall sm, t_init evalX n_ops ss = Done sm -> Forall PC (chains sm)).
Proof.
  intros HP. unfold t_init.
  assert (G : t_init_chains evalY (map h ss) = ext_map (map (map_chain h)) (t_init_chains evalX ss) /\
              (forall chs, t_init_chains evalX ss = Done chs -> Forall PC chs)).
  { induction HP as [|s ss Hs HP [IH1 IH2]]; cbn [t_init_chains map].
    - split; [reflexivity|]. intros chs [= <-]. constructor.
    - destruct (eval_ok 0 Hs) as [-> E2]. destruct (evalX 0 s) as [[[x ll] pr]| | |]; cbn [ext_map ebind]; try (split; [reflexivity|discriminate]).
      rewrite IH1. destruct (t_init_chains evalX ss) as [chs| | |]; cbn [ext_map ebind]; try (split; [reflexivity|discriminate]).
      split; [reflexivity|]. intros chs' [= <-]. constructor; [exact (E2 _ _ _ eq_refl)|apply IH2; reflexivity]. }
  destruct G as [-> G2]. destruct (t_init_chains evalX ss) as [chs| | |]; cbn [ext_map ebind]; try (split; [reflexivity|discriminate]).
  split; [reflexivity|]. intros sm [= <-]. apply G2; reflexivity.
Qed.
Lemma loop_sim n_steps n_samples draws : (forall i c, ok (draws i c)) -> forall todo i sm log last, Forall PC (chains sm) ->
  t_loop propY evalY n_steps n_samples draws todo i (map_sampler h sm) (map_log h log) (option_map (map_obj h) last) =
  ext_map (map_run h) (t_loop propX evalX n_steps n_samples draws todo i sm log last).
Proof.
  intros Hd. induction todo as [|todo IH]; intros i sm log last HP; cbn [t_loop]; [reflexivity|].
  destruct (step_all_sim i (Hd i) HP) as [-> S2].
  destruct (t_step_all propX evalX i (draws i) sm) as [sm'| | |]; cbn [ext_map ebind]; auto. cbv zeta.
  destruct (n_steps - 1 =? 0); [reflexivity|]. rewrite <- IH by (apply S2; reflexivity).
  assert (E1 : option_map (@c_obj Y) (nth_error (chains (map_sampler h sm')) 0) = option_map (map_obj h) (option_map (@c_obj X) (nth_error (chains sm') 0))).
  { cbn [map_sampler chains]. rewrite nth_error_map. destruct (nth_error (chains sm') 0); reflexivity. }
  rewrite E1. f_equal.
  - destruct (i mod _ =? 0); [|reflexivity]. destruct (option_map (@c_obj X) (nth_error (chains sm') 0)); cbn [option_map]; [|reflexivity].
    unfold map_log. rewrite map_app. reflexivity.
  - destruct (_ && _); reflexivity.
Qed.
Lemma samples_sim n_ops ss n_steps n_samples draws : (forall i c, ok (draws i c)) -> Forall P ss ->
  t_generate_samples propY evalY n_ops (map h ss) n_steps n_samples draws =
  ext_map (map_run h) (t_generate_samples propX evalX n_ops ss n_steps n_samples draws).
Proof.
  intros Hd HP. unfold t_generate_samples. destruct (init_sim n_ops HP) as [-> I2].
  destruct (t_init evalX n_ops ss) as [sm| | |]; cbn [ext_map ebind]; auto.
  apply (@loop_sim n_steps n_samples draws Hd n_steps 0 sm [] None). apply I2; reflexivity.
Qed.
Lemma best_sim chs : best_sample (map (map_chain h) chs) = option_map (map_obj h) (best_sample chs).
Proof.
  unfold best_sample. rewrite map_map. change (fun x => posterior (map_chain h x)) with (@posterior X).
  destruct (map (@posterior X) chs) as [|x r]; [reflexivity|]. destruct (index_of _ _) as [i|]; [|reflexivity].
  rewrite nth_error_map. destruct (nth_error chs i); reflexivity.
Qed.
Lemma warm_sim n_ops ss n draws : (forall i c, ok (draws i c)) -> Forall P ss ->
  t_warm_up propY evalY n_ops (map h ss) n draws = ext_map (map_warm h) (t_warm_up propX evalX n_ops ss n draws).
Proof.
  intros Hd HP. unfold t_warm_up. destruct (init_sim n_ops HP) as [-> I2].
  destruct (t_init evalX n_ops ss) as [sm| | |]; cbn [ext_map ebind]; auto. specialize (I2 _ eq_refl).
  assert (G : forall todo i sm, Forall PC (chains sm) ->
    t_warm_loop propY evalY draws todo i (map_sampler h sm) = ext_map (map_sampler h) (t_warm_loop propX evalX draws todo i sm)).
  { clear - Hd prop_ok eval_ok. induction todo as [|todo IH]; intros i sm HP; cbn [t_warm_loop]; [reflexivity|].
    destruct (step_all_sim i (Hd i) HP) as [-> S2]. destruct (t_step_all propX evalX i (draws i) sm) as [sm'| | |]; cbn [ext_map ebind]; auto. }
  rewrite G by auto. destruct (t_warm_loop propX evalX draws n 0 sm) as [sm'| | |]; cbn [ext_map ebind]; auto.
  unfold map_warm. cbn [fst snd map_sampler chains]. rewrite best_sim. reflexivity.
Qed.
End Simulation.

Lemma map_sampler_id X (sm : sampler X) : map_sampler (fun x => x) sm = sm.
Proof.
  destruct sm as [chs st]. unfold map_sampler. cbn [chains statistics]. f_equal. rewrite <- (map_id chs) at 2. apply map_ext.
  intros [[c i l p] a b]. reflexivity.
Qed.

(** * Sample objects and samples with a memory *)
Section Runs.
Variable su : setup.
Variable M : mdl xf.
Hypothesis F : fits su M.
Variables (bpdf : R -> R -> R -> R) (dpdf : list Q -> list Q -> R).
Variable checks : bool.

Lemma with_memory_view (r : result tsample) m : (forall c, geo_memory (res_content c r) = m) \/ r = RReject tsample ->
  map_result mview r = map_result (fun s => (s, m)) (map_result view r).
Proof.
  intros [H| ->]; [|reflexivity]. destruct r; cbn [map_result res_content] in *; auto; unfold mview; rewrite <- (H s); reflexivity.
Qed.
Lemma tracked_prop_ok d s : P su M s -> draw_ok su d ->
  match tracked_propose su M bpdf dpdf (td_op d) (td_choice d) s with
  | None => memory_propose su bpdf dpdf (td_op d) (td_choice d) (mview s) = None
  | Some (c, r) => exists c', memory_propose su bpdf dpdf (td_op d) (td_choice d) (mview s) = Some (c', map_result mview r) /\
      mview (res_content c r) = res_content c' (map_result mview r) /\ P su M (res_content c r) /\
      (res_aliased r = false -> mview c = c' /\ P su M c)
  end.
Proof.
  intros HP Hd. unfold tracked_propose, memory_propose, plain_propose.
  destruct (nth_error (operators su) (td_op d)) as [k|] eqn:Ek; [|reflexivity].
  pose proof (Hd k Ek) as C. pose proof (@kind_sim su M F bpdf dpdf k (td_choice d) s HP C) as S.
  pose proof (fun r => @plain_proposal su bpdf dpdf k (td_choice d) (view s) r (proj2 HP) C) as Pl.
  destruct (t_propose su M bpdf dpdf k (td_choice d) s) as [[c r]|], (plain_kind su bpdf dpdf k (td_choice d) (fst (mview s))) as [r'|] eqn:Er; try contradiction; cbn [option_map]; auto.
  2:{ change (fst (mview s)) with (view s) in Er. rewrite Er in S. contradiction. }
  2:{ change (fst (mview s)) with (view s) in Er. rewrite Er in S. contradiction. }
  change (fst (mview s)) with (view s) in Er. rewrite Er in S. cbn [prop_sim] in S. destruct S as (S1 & S2 & S3 & S4).
  specialize (Pl _ Er). apply (proposal_valid (proj2 HP)) in Pl.
  assert (Ev : view (res_content c r) = res_content (view s) r').
  { subst r'. destruct r; cbn [map_result res_content] in *; auto. apply (kept_view S4). }
  exists (mview s). conj.
  - f_equal. f_equal. rewrite <- S1. symmetry. apply with_memory_view. cbn [mview snd].
    destruct r; [right; reflexivity|left; intros; exact S3..].
  - destruct r; cbn [map_result res_content] in *; auto. unfold mview. rewrite S3, (kept_view S4). reflexivity.
  - split; auto. rewrite Ev. exact Pl.
  - intros Ha. destruct r; try discriminate. split.
    + unfold mview. rewrite (kept_view S4). f_equal. apply geo_memory_eq, S4.
    + split; [apply S4|]. rewrite (kept_view S4). apply HP.
Qed.
Lemma tracked_memory_run ss n_steps n_samples draws : (forall i c, draw_ok su (draws i c)) -> Forall (P su M) ss ->
  memory_run su M bpdf dpdf checks (map mview ss) n_steps n_samples draws =
  ext_map (map_run mview) (tracked_run su M bpdf dpdf checks ss n_steps n_samples draws).
Proof.
  intros Hd HP. unfold memory_run, tracked_run. eapply samples_sim with (P := P su M) (ok := draw_ok su); auto.
  - intros d x Hx Ho. apply tracked_prop_ok; auto.
  - intros i x Hx. apply eval_sim; auto.
Qed.
Lemma tracked_memory_warm ss n draws : (forall i c, draw_ok su (draws i c)) -> Forall (P su M) ss ->
  memory_warm_up su M bpdf dpdf checks (map mview ss) n draws = ext_map (map_warm mview) (tracked_warm_up su M bpdf dpdf checks ss n draws).
Proof.
  intros Hd HP. unfold memory_warm_up, tracked_warm_up. eapply warm_sim with (P := P su M) (ok := draw_ok su); auto.
  - intros d x Hx Ho. apply tracked_prop_ok; auto.
  - intros i x Hx. apply eval_sim; auto.
Qed.

(** * A constant geo-prior *)
Section Constant.
Variable g : xf.
Hypothesis Hg : forall cl, geo_fn M cl = g.
Definition known (x : memory) : Prop := snd x = None \/ snd x = Some g.
Lemma scratch_with s : prior_with M g s = scratch_prior M s.
Proof. unfold scratch_prior. change (spec_prior M (fresh_pars s)) with (let t := spec_prior M (fresh_pars s) in t) at 1. unfold prior_with. cbv zeta. unfold log_prior. cbn [t_size t_geo t_weights t_ce t_conf t_src spec_prior]. rewrite Hg. reflexivity. Qed.
Lemma memory_plain_prop d x : known x ->
  match memory_propose su bpdf dpdf (td_op d) (td_choice d) x with
  | None => plain_propose su bpdf dpdf (td_op d) (td_choice d) (fst x) = None
  | Some (c, r) => exists c', plain_propose su bpdf dpdf (td_op d) (td_choice d) (fst x) = Some (c', map_result fst r) /\
      fst (res_content c r) = res_content c' (map_result fst r) /\ known (res_content c r) /\
      (res_aliased r = false -> fst c = c' /\ known c)
  end.
Proof.
  intros K. unfold memory_propose, plain_propose. destruct (nth_error (operators su) (td_op d)) as [k|]; [|reflexivity].
  destruct (plain_kind su bpdf dpdf k (td_choice d) (fst x)) as [r|]; cbn [option_map]; [|reflexivity].
  exists (fst x). destruct r; cbn [map_result res_content]; conj; auto.
Qed.
Lemma memory_plain_eval i x : known x ->
  plain_eval su M checks i (fst x) = ext_map (fun '(x, ll, p) => (fst x, ll, p)) (memory_eval su M checks i x) /\
  (forall x' ll p, memory_eval su M checks i x = Done (x', ll, p) -> known x').
Proof.
  destruct x as [s m]. unfold known. cbn [fst snd]. intros K. unfold plain_eval, memory_eval. rewrite !Hg.
  set (ll := if su_from_prior su then Fin 0 else scratch_ll M s).
  assert (Eu : match (if due checks i && negb (su_from_prior su) then None else m) with Some g' => g' | None => g end = g).
  { destruct (due checks i && negb (su_from_prior su)); auto. destruct K as [-> | ->]; auto. }
  rewrite !Eu, scratch_with, xeqb_refl.
  destruct (checked checks i ll) eqn:E1; cbn [negb andb ext_map]; [|split; [reflexivity|discriminate]].
  unfold checked at 1. destruct (due checks i); cbn [negb orb].
  - destruct (scratch_prior M s); cbn [ext_map fst]; (split; [reflexivity|]); try discriminate; intros x' l p [= <- <- <-]; right; reflexivity.
  - cbn [ext_map fst]. split; [reflexivity|]. intros x' l p [= <- <- <-]. right. reflexivity.
Qed.
Lemma memory_plain_run xs n_steps n_samples draws : Forall known xs ->
  plain_run su M bpdf dpdf checks (map fst xs) n_steps n_samples draws =
  ext_map (map_run fst) (memory_run su M bpdf dpdf checks xs n_steps n_samples draws).
Proof.
  intros HK. unfold plain_run, memory_run. eapply samples_sim with (P := known) (ok := fun _ => True); auto.
  - intros d x Hx _. apply memory_plain_prop; auto.
  - intros i x Hx. apply memory_plain_eval; auto.
Qed.
Lemma memory_plain_warm xs n draws : Forall known xs ->
  plain_warm_up su M bpdf dpdf checks (map fst xs) n draws = ext_map (map_warm fst) (memory_warm_up su M bpdf dpdf checks xs n draws).
Proof.
  intros HK. unfold plain_warm_up, memory_warm_up. eapply warm_sim with (P := known) (ok := fun _ => True); auto.
  - intros d x Hx _. apply memory_plain_prop; auto.
  - intros i x Hx. apply memory_plain_eval; auto.
Qed.
End Constant.
End Runs.
