(** The plots of a run do not depend on those before. *)
From Coq Require Import Lra.
From Verif Require Import M_plotrun S_simplex S_plot2 S_plotfiles L_text L_plot2 P_simplex L_plotrun.
Set Implicit Arguments.
Unset Strict Implicit.
Close Scope R_scope.
Close Scope Q_scope.
Open Scope nat_scope.

Definition fine (c : cache) : Prop := good_cache c /\ forall n, n < 3 -> c n = new_cache n.
Lemma fine_new : fine new_cache.
Proof. split; [apply good_new|auto]. Qed.
Definition is_some {A} (x : option A) : bool := match x with Some _ => true | None => false end.
Lemma fill_same c c' n : fine c -> fine c' -> is_some (fill_outside (c n)) = is_some (fill_outside (c' n)).
Proof.
  intros [G F] [G' F']. destruct (Nat.lt_ge_cases n 3) as [L|L]; [rewrite F, F' by auto; reflexivity|].
  destruct (G n L) as (s & Hs). destruct (G' n L) as (s' & Hs'). destruct (fill_regular _ _ _ L Hs) as (l & ->). destruct (fill_regular _ _ _ L Hs') as (l' & ->). reflexivity.
Qed.
Lemma weight_same c c' title names sm : fine c -> fine c' -> is_some (plot_weight c title names sm) = is_some (plot_weight c' title names sm).
Proof.
  intros H H'. unfold plot_weight. pose proof (fill_same (n_columns sm) H H') as E. destruct (fill_outside (c _)), (fill_outside (c' _)); auto; discriminate.
Qed.
Lemma weights_same c c' names : fine c -> fine c' -> forall ws pos, is_some (weight_panels c names ws pos) = is_some (weight_panels c' names ws pos).
Proof.
  intros H H'. induction ws as [|(f & w) ws IH]; intros pos; auto. cbn [weight_panels]. pose proof (weight_same f names (as_real w) H H') as E.
  destruct (plot_weight c _ _ _), (plot_weight c' _ _ _); try discriminate; auto. cbn [obind]. specialize (IH (S pos)). destruct (weight_panels c _ _ _), (weight_panels c' _ _ _); try discriminate; auto.
Qed.
Lemma plot_weights_same c c' features names n_col file fmt ws : fine c -> fine c' ->
  option_map fg_file (plot_weights c features names n_col file fmt ws) = option_map fg_file (plot_weights c' features names n_col file fmt ws).
Proof.
  intros H H'. unfold plot_weights. destruct (match features with [] => Some ws | _ => _ end) as [w|]; auto. cbn [obind]. destruct (grid _ _) as [(n_row & off)|]; auto. cbn [obind].
  pose proof (@weights_same c c' names H H' w 1) as E. destruct (weight_panels c _ _ _), (weight_panels c' _ _ _); try discriminate; auto.
Qed.
Definition okq (r : results) (f : str) (m : list (list Q)) : Prop := exists states, lookup f (r_features r) = Some states /\ Forall (fun row : list Q => length row = length states) m.
Lemma preference_same c c' add title states sm : fine c -> fine c' -> (3 <= n_columns sm -> length states = n_columns sm) ->
  is_some (plot_preference c add title states sm) = is_some (plot_preference c' add title states sm) /\
  forall d p, plot_preference c add title states sm = Some (d, p) -> fine d.
Proof.
  intros H H' Hl. split.
  - unfold plot_preference. destruct (n_columns sm =? 2); auto. destruct (2 <? n_columns sm); auto. pose proof (fill_same (n_columns sm) H H') as E.
    destruct (fill_outside (c _)), (fill_outside (c' _)); auto; discriminate.
  - intros d p E. split; [eapply preference_good; [apply H|exact Hl|exact E]|]. intros n Hn. unfold plot_preference in E. destruct (n_columns sm =? 2); [injection E as <- _; apply H; auto|].
    destruct (Nat.ltb_spec 2 (n_columns sm)); [|injection E as <- _; apply H; auto]. destruct (fill_outside _); [|discriminate]. cbn [option_map] in E. injection E as <- _. unfold set_cache.
    destruct (Nat.eqb_spec n (n_columns sm)); [lia|apply H; auto].
Qed.
Lemma panels_same add r places : forall prefs c c' pos, fine c -> fine c' -> fits r prefs ->
  is_some (preference_panels c add r places prefs pos) = is_some (preference_panels c' add r places prefs pos) /\
  forall d ps, preference_panels c add r places prefs pos = Some (d, ps) -> fine d.
Proof.
  induction prefs as [|(f & m) prefs IH]; intros c c' pos H H' Hf; cbn [preference_panels]; [split; [auto|intros d ps [= <- _]; auto]|].
  destruct (places <? pos); [split; [auto|discriminate]|]. destruct (Hf f m (or_introl eq_refl)) as (states & Es & Hm). unfold states_for_feature. rewrite Es. cbn [obind].
  assert (Hl : 3 <= n_columns (as_real m) -> length states = n_columns (as_real m)) by (intros L; apply columns_length; auto).
  destruct (@preference_same c c' add f states (as_real m) H H' Hl) as [E1 E2]. destruct (@preference_same c' c add f states (as_real m) H' H Hl) as [_ E3].
  destruct (plot_preference c _ _ _ _) as [(c1 & p1)|], (plot_preference c' _ _ _ _) as [(c2 & p2)|]; try discriminate E1; [|split; [auto|discriminate]]. cbn [obind].
  destruct (IH c1 c2 (S pos)) as [I1 I2]; [eapply E2; eauto|eapply E3; eauto|intros f' m' I; apply Hf; right; auto|].
  destruct (preference_panels c1 _ _ _ _ _) as [(d1 & q1)|], (preference_panels c2 _ _ _ _ _) as [(d2 & q2)|]; try discriminate I1; (split; [auto|]); cbn [obind]; [|discriminate].
  intros d ps [= <- _]. eapply I2; eauto.
Qed.
Lemma row_same add r feature comp cols row : forall groups c c' col, fine c -> fine c' -> (forall g by_f, In (g, by_f) groups -> fits r by_f) ->
  is_some (feature_row c add r feature comp cols row col groups) = is_some (feature_row c' add r feature comp cols row col groups) /\
  forall d ps, feature_row c add r feature comp cols row col groups = Some (d, ps) -> fine d.
Proof.
  induction groups as [|(g & by_f) groups IH]; intros c c' col H H' Hg; cbn [feature_row]; [split; [auto|intros d ps [= <- _]; auto]|].
  destruct (cols <=? col); [split; [auto|discriminate]|]. destruct (lookup feature by_f) as [sm|] eqn:El; [|split; [auto|discriminate]]. cbn [obind].
  destruct (Hg g by_f (or_introl eq_refl) _ _ (lookup_in El)) as (states & Es & F). unfold states_for_feature. rewrite Es. cbn [obind].
  assert (Hl : 3 <= n_columns (as_real sm) -> length states = n_columns (as_real sm)) by (intros L; apply columns_length; auto).
  destruct (@preference_same c c' add (group_title comp g) states (as_real sm) H H' Hl) as [E1 E2]. destruct (@preference_same c' c add (group_title comp g) states (as_real sm) H' H Hl) as [_ E3].
  destruct (plot_preference c _ _ _ _) as [(c1 & p1)|], (plot_preference c' _ _ _ _) as [(c2 & p2)|]; try discriminate E1; [|split; [auto|discriminate]]. cbn [obind].
  destruct (IH c1 c2 (S col)) as [I1 I2]; [eapply E2; eauto|eapply E3; eauto|intros g' b I; apply (Hg g' b); right; auto|].
  destruct (feature_row c1 _ _ _ _ _ _ _ _) as [(d1 & q1)|], (feature_row c2 _ _ _ _ _ _ _ _) as [(d2 & q2)|]; try discriminate I1; (split; [auto|]); cbn [obind]; [|discriminate].
  intros d ps [= <- _]. eapply I2; eauto.
Qed.
Lemma rows_same add r feature cols : forall prefs c c' row, fine c -> fine c' -> (forall comp groups g by_f, In (comp, groups) prefs -> In (g, by_f) groups -> fits r by_f) ->
  is_some (feature_rows c add r feature cols row prefs) = is_some (feature_rows c' add r feature cols row prefs) /\
  forall d ps, feature_rows c add r feature cols row prefs = Some (d, ps) -> fine d.
Proof.
  induction prefs as [|(comp & groups) prefs IH]; intros c c' row H H' Hg; cbn [feature_rows]; [split; [auto|intros d ps [= <- _]; auto]|].
  assert (Hg1 : forall g by_f, In (g, by_f) groups -> fits r by_f) by (intros g b I; apply (Hg comp groups g b); simpl; auto).
  destruct (@row_same add r feature comp cols row groups c c' 2 H H' Hg1) as [E1 E2]. destruct (@row_same add r feature comp cols row groups c' c 2 H' H Hg1) as [_ E3].
  destruct (feature_row c _ _ _ _ _ _ _ _) as [(c1 & p1)|], (feature_row c' _ _ _ _ _ _ _ _) as [(c2 & p2)|]; try discriminate E1; [|split; [auto|discriminate]]. cbn [obind].
  destruct (IH c1 c2 (S row)) as [I1 I2]; [eapply E2; eauto|eapply E3; eauto|intros comp' gs g b I J; apply (Hg comp' gs g b); [right; auto|auto]|].
  destruct (feature_rows c1 _ _ _ _ _ _) as [(d1 & q1)|], (feature_rows c2 _ _ _ _ _ _) as [(d2 & q2)|]; try discriminate I1; (split; [auto|]); cbn [obind]; [|discriminate].
  intros d ps [= <- _]. eapply I2; eauto.
Qed.

(** Whether [a] ends does not depend on what was drawn before. *)
Definition steady (a : action) : Prop := forall s1 s2, fine (ps_cache s1) -> fine (ps_cache s2) -> snd (a s1) = snd (a s2) /\ fine (ps_cache (fst (a s1))).
Lemma steady_skip : steady skip.
Proof. intros s1 s2 H _. auto. Qed.
Lemma steady_raise : steady raise.
Proof. intros s1 s2 H _. auto. Qed.
Lemma steady_andthen a b : steady a -> steady b -> steady (andthen a b).
Proof.
  intros A B s1 s2 H1 H2. unfold andthen. destruct (A s1 s2 H1 H2) as [E1 F1]. destruct (A s2 s1 H2 H1) as [_ F2]. destruct (a s1) as [t1 o1], (a s2) as [t2 o2]. cbn [fst snd] in *. subst o2.
  destruct o1; [apply B; auto|auto].
Qed.
Lemma steady_when b a : steady a -> steady (when b a).
Proof. intros A. destruct b; [exact A|apply steady_skip]. Qed.
Lemma steady_save n p q : forall s1 s2, fine (ps_cache s1) -> fine (ps_cache s2) -> snd (save n p s1) = snd (save n q s2) /\ fine (ps_cache (fst (save n p s1))).
Proof. intros s1 s2 H1 H2. unfold save. destruct (existsb _ n); auto. Qed.

Section Plots.
Variable delaunay : list point -> list (list bool).
Variable parse : str -> option Q.
Variable locations : list point.
Variable names : list str.
Variable each : list Q -> list bmat -> option (list graph).
Variable cfg : plot_config.
Section Model.
Variables (m : str) (r : results).
Hypothesis Hs : sound r.
Lemma steady_map : steady (plot_map delaunay locations each cfg m r).
Proof.
  assert (A : forall gs n, steady (posterior_map cfg gs n)) by (intros [gs|] n; [intros s1 s2; apply steady_save|apply steady_raise]).
  unfold plot_map. destruct (str_eqb _ _); [apply A|]. destruct (str_eqb _ _); [apply A|apply steady_raise].
Qed.
Lemma steady_weights : steady (weights_action cfg m r).
Proof.
  intros s1 s2 H1 H2. unfold weights_action. pose proof (@plot_weights_same (ps_cache s1) (ps_cache s2) (pc_weight_features cfg) (pc_weight_names cfg) (pc_weight_cols cfg) (s_ "weights_grid_" ++ m) (pc_weight_format cfg) (r_weights r) H1 H2) as E.
  destruct (plot_weights (ps_cache s1) _ _ _ _ _ _) as [f1|], (plot_weights (ps_cache s2) _ _ _ _ _ _) as [f2|]; try discriminate E; auto. cbn [option_map] in E. injection E as E. rewrite E. apply steady_save; auto.
Qed.
Lemma steady_prefs n_row off : forall prefs, (forall k p, In (k, p) prefs -> component r k p) -> steady (preference_actions cfg r n_row off (s_ "prob_grid_" ++ m) prefs).
Proof.
  induction prefs as [|(k & p) prefs IH]; intros H; [apply steady_skip|]. cbn [preference_actions preference_figures]. intros s1 s2 H1 H2.
  assert (Hf : fits r p) by (intros f mm I; apply (so_states Hs (k := k) (p := p)); auto; apply H; left; auto).
  destruct (@panels_same (pc_pref_add cfg) r (n_row * pc_pref_cols cfg) p (ps_cache s1) (ps_cache s2) 1 H1 H2 Hf) as [E1 E2].
  destruct (@panels_same (pc_pref_add cfg) r (n_row * pc_pref_cols cfg) p (ps_cache s2) (ps_cache s1) 1 H2 H1 Hf) as [_ E3].
  destruct (preference_panels (ps_cache s1) _ _ _ _ _) as [(c1 & q1)|], (preference_panels (ps_cache s2) _ _ _ _ _) as [(c2 & q2)|]; try discriminate E1; [|auto]. cbn [obind fold_right].
  assert (F1 : fine c1) by (eapply E2; eauto). assert (F2 : fine c2) by (eapply E3; eauto). unfold andthen, keep_cache, skip. cbn [fg_file ps_cache ps_files ps_results].
  unfold save. match goal with |- context [existsb ?f ?n] => destruct (existsb f n) end; [split; [reflexivity|exact F1]|].
  apply IH; auto. intros k' p' I. apply H. right. auto.
Qed.
Lemma steady_preferences : steady (preferences_action cfg m r).
Proof.
  unfold preferences_action. destruct (grid _ _) as [(n_row & off)|].
  - apply steady_prefs. intros k p H. apply selected_spec in H. apply H.
  - destruct (selected _ _); [|apply steady_raise]. destruct (_ =? 0); [apply steady_raise|apply steady_skip].
Qed.
Lemma steady_pies : steady (pies_action names cfg m r).
Proof. unfold pies_action. destruct (plot_pies _ _ _ _); [intros s1 s2; apply steady_save|apply steady_raise]. Qed.
Lemma steady_feature : steady (feature_action cfg r).
Proof.
  intros s1 s2 H1 H2. unfold feature_action. destruct (pc_feature cfg) as [x|]; [|auto]. unfold plot_weights_and_prefs. destruct (r_confounders r) as [|cf cfs]; [auto|].
  destruct (lookup x (r_weights r)) as [w|]; [|auto]. cbn [obind]. pose proof (weight_same [] (pc_feature_names cfg) (as_real w) H1 H2) as E.
  destruct (plot_weight (ps_cache s1) _ _ _), (plot_weight (ps_cache s2) _ _ _); try discriminate E; [|auto]. cbn [obind].
  assert (Hg : forall comp groups g by_f, In (comp, groups) (feature_preferences r) -> In (g, by_f) groups -> fits r by_f).
  { intros comp groups g by_f I J f0 m0 K. unfold feature_preferences in I. destruct (set_key_from I) as [[-> ->]|I']; [apply (so_states Hs (k := g) (p := by_f)); [left; auto|auto]|].
    apply (so_states Hs (k := comp ++ s_ "_" ++ g) (p := by_f)); [right; exists comp, groups, g; auto|auto]. }
  match goal with |- context [feature_rows (ps_cache s1) ?a ?rr ?f ?cols ?row ?prefs] =>
    destruct (@rows_same a rr f cols prefs (ps_cache s1) (ps_cache s2) row H1 H2 Hg) as [E1 E2] end.
  destruct (feature_rows (ps_cache s1) _ _ _ _ _ _) as [(d1 & q1)|], (feature_rows (ps_cache s2) _ _ _ _ _ _) as [(d2 & q2)|]; try discriminate E1; [|auto]. cbn [obind].
  split; [reflexivity|]. eapply E2; eauto.
Qed.
Lemma steady_model : steady (model_action delaunay locations names each cfg m r).
Proof.
  unfold model_action. apply steady_andthen; [intros s1 s2 H1 H2; split; [reflexivity|exact H1]|].
  repeat apply steady_andthen; apply steady_when; auto using steady_map, steady_weights, steady_preferences, steady_pies, steady_feature.
Qed.
End Model.
Variable read : path -> option str.
Notation actions := (model_actions delaunay parse locations names each cfg read).
Lemma steady_actions : forall ms, steady (actions ms).
Proof.
  induction ms as [|(m & cs) ms IH]; [apply steady_skip|]. cbn [model_actions]. destruct (read_model parse cfg read cs) as [r|] eqn:E; [|apply steady_raise].
  apply steady_andthen; [apply steady_model; eapply read_sound; eauto|exact IH].
Qed.
Lemma actions_each : forall ms st, fine (ps_cache st) -> (snd (actions ms st) = true <-> forall e, In e ms -> forall st', fine (ps_cache st') -> snd (actions [e] st') = true).
Proof.
  induction ms as [|(m & cs) ms IH]; intros st Hc; [split; [intros _ e []|auto]|].
  assert (A : snd (actions ((m, cs) :: ms) st) = true <-> snd (actions [(m, cs)] st) = true /\ forall st', fine (ps_cache st') -> snd (actions ms st') = true).
  { cbn [model_actions]. destruct (read_model parse cfg read cs) as [r|] eqn:E; [|split; [discriminate|intros [H _]; exact H]].
    assert (SM := steady_model m (read_sound E)). unfold andthen. destruct (SM st st Hc Hc) as [_ F]. destruct (model_action delaunay locations names each cfg m r st) as [s1 o1]. cbn [fst] in F.
    destruct o1; [|split; [discriminate|intros [H _]; exact H]]. split.
    - intros H. split; [reflexivity|]. intros st' H'. rewrite <- H. apply steady_actions; auto.
    - intros [_ H]. auto. }
  rewrite A. split.
  - intros [H1 H2] e [<-|I] st' Hc'.
    + rewrite <- H1. apply (steady_actions [(m, cs)]); auto.
    + eapply (proj1 (IH st Hc)); auto.
  - intros H. split; [apply H; [left; auto|auto]|]. intros st' Hc'. apply IH; auto. intros e I. apply H. right. auto.
Qed.
End Plots.
