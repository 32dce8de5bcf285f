(** Lemmas on the files that the plots leave. *)
From Coq Require Import Lra.
From Verif Require Import M_plotrun S_simplex S_plot2 S_plotfiles L_text L_plot2 P_simplex P_dicplot.
Set Implicit Arguments.
Unset Strict Implicit.
Close Scope R_scope.
Close Scope Q_scope.
Open Scope nat_scope.

(** * Dictionaries *)
Lemma NoDup_app_single A (l : list A) x : NoDup l -> ~ In x l -> NoDup (l ++ [x]).
Proof. intros H N. apply (Permutation.Permutation_NoDup (Permutation.Permutation_cons_append l x)). constructor; auto. Qed.
Lemma lookup_in A (k : str) (v : A) d : lookup k d = Some v -> In (k, v) d.
Proof.
  unfold lookup. destruct (find _ d) as [(k' & v')|] eqn:E; [|discriminate]. intros [= <-]. apply find_some in E as [H E]. cbn [fst snd] in *. apply str_eqb_eq in E. subst k'. exact H.
Qed.
Lemma lookup_nodup A (k : str) (v : A) d : NoDup (map fst d) -> In (k, v) d -> lookup k d = Some v.
Proof.
  unfold lookup. induction d as [|(k' & v') d IH]; intros H Hin; [destruct Hin|]. cbn [find fst]. inversion H as [|? ? Hn H']; subst. destruct Hin as [[= -> ->]|Hin]; [rewrite str_eqb_refl; reflexivity|].
  destruct (str_eqb k k') eqn:E; [|apply IH; auto]. apply str_eqb_eq in E. subst k'. destruct Hn. change k with (fst (k, v)). apply in_map. exact Hin.
Qed.
Lemma lookup_set A (n k : str) (v : A) d : lookup n (set_key k v d) = if str_eqb n k then Some v else lookup n d.
Proof.
  unfold set_key. destruct (existsb (fun e => str_eqb k (fst e)) d) eqn:E.
  - unfold lookup. assert (G : str_eqb n k = true -> existsb (fun e : str * A => str_eqb n (fst e)) d = true) by (intros H; apply str_eqb_eq in H; subst; exact E).
    clear E. revert G. induction d as [|(k' & v') d IH]; intros G.
    { cbn in *. destruct (str_eqb n k); auto. discriminate G; auto. }
    cbn [map find fst existsb] in *. destruct (str_eqb k k') eqn:E1.
    + apply str_eqb_eq in E1. subst k'. cbn [fst]. destruct (str_eqb n k); [reflexivity|apply IH; discriminate].
    + cbn [fst]. destruct (str_eqb n k') eqn:E2.
      * destruct (str_eqb n k) eqn:E3; auto. apply str_eqb_eq in E2, E3. subst. rewrite str_eqb_refl in E1. discriminate.
      * apply IH. intros H. specialize (G H). exact G.
  - unfold lookup. assert (G : str_eqb n k = true -> existsb (fun e : str * A => str_eqb n (fst e)) d = false) by (intros H; apply str_eqb_eq in H; subst; exact E).
    clear E. induction d as [|(k' & v') d IH].
    { cbn. destruct (str_eqb n k); auto. }
    cbn [app find fst existsb] in *. destruct (str_eqb n k') eqn:E2; [|apply IH; auto]. destruct (str_eqb n k); auto. discriminate G; auto.
Qed.
Lemma dict_of_in A B (key : A -> str) (f : A -> option B) l d : dict_of key f l = Some d -> map fst d = map key l /\ forall k v, In (k, v) d -> exists a, In a l /\ k = key a /\ f a = Some v.
Proof.
  unfold dict_of. revert d. induction l as [|a l IH]; intros d H; cbn [map all_opt] in H; [injection H as <-; split; [auto|intros k v []]|].
  destruct (f a) as [b|] eqn:E; [|discriminate]. cbn [option_map] in H. destruct (all_opt _) as [d'|] eqn:E'; [|discriminate]. injection H as <-.
  destruct (IH _ eq_refl) as [H1 H2]. split; [simpl; congruence|]. intros k v [[= <- <-]|Hin]; [exists a; simpl; auto|]. destruct (H2 _ _ Hin) as (a' & I & J). exists a'. simpl. auto.
Qed.

(** * What the reader of the results guarantees *)
Lemma find_groups_nodup prefix cols : forall acc l, NoDup acc -> find_groups prefix cols acc = Some l -> NoDup l.
Proof.
  induction cols as [|key cols IH]; intros acc l Ha H; cbn [find_groups] in H; [injection H as <-; auto|]. destruct (startswith prefix key); [|eauto].
  destruct (split_max 2 underscore key) as [|x [|g [|y [|]]]]; try discriminate. eapply IH; [|exact H]. destruct (mem g acc) eqn:E; auto.
  apply NoDup_app_single; auto. intros C. apply mem_In in C. congruence.
Qed.
Lemma add_state_keys fs f s : NoDup (map fst fs) -> NoDup (map fst (add_state fs f s)).
Proof.
  intros H. unfold add_state. destruct (existsb _ fs) eqn:E.
  - clear E. match goal with |- NoDup (map fst (?g fs)) => assert (G : map fst (g fs) = map fst fs) end.
    { clear H. induction fs as [|(f' & ss) fs IH]; auto. destruct (str_eqb f f'); cbn [map fst]; [reflexivity|]. f_equal. exact IH. }
    rewrite G. exact H.
  - rewrite map_app. apply NoDup_app_single; auto. intros C. apply in_map_iff in C as ((f' & ss) & E1 & C). cbn [fst] in E1. subst f'.
    apply Bool.not_true_iff_false in E. apply E. apply existsb_exists. exists (f, ss). split; auto. apply str_eqb_refl.
Qed.
Lemma features_nodup cols prefix : NoDup (map fst (extract_features_and_states cols prefix)).
Proof.
  unfold extract_features_and_states. match goal with |- NoDup (map fst (fold_left ?g _ [])) => assert (G : forall l fs, NoDup (map fst fs) -> NoDup (map fst (fold_left g l fs))) end.
  { induction l as [|c l IH]; intros fs H; auto. cbn [fold_left]. apply IH. destruct (cut underscore _) as [(f & s)|]; apply add_state_keys; auto. }
  apply G. constructor.
Qed.
Record sound (r : results) : Prop := {
  so_areal : NoDup (map fst (r_areal_effect r));
  so_weights : NoDup (map fst (r_weights r));
  so_states : forall k p f m, component r k p -> In (f, m) p -> exists states, lookup f (r_features r) = Some states /\ Forall (fun row : list Q => length row = length states) m }.
Lemma probs_shape t features prefix p : parse_probs t features prefix = Some p -> NoDup (map fst features) ->
  forall f m, In (f, m) p -> exists states, lookup f features = Some states /\ Forall (fun row : list Q => length row = length states) m.
Proof.
  intros H Hn f m Hin. destruct (dict_of_in H) as [_ G]. destruct (G _ _ Hin) as ((f' & ss) & I & -> & E). cbn [fst snd] in *. exists ss. split; [apply lookup_nodup; auto|].
  destruct (all_opt _) as [cols|] eqn:Ea; [|discriminate]. apply all_opt_spec in Ea. apply (f_equal (@length _)) in Ea. rewrite !map_length in Ea.
  unfold column_stack in E. destruct cols as [|c cs]; [discriminate|]. injection E as <-. apply Forall_forall. intros row Hr.
  apply in_map_iff in Hr as (i & <- & _). cbn [length] in *. rewrite map_length. auto.
Qed.
Lemma make_sound clusters t b r : make_results clusters t b = Some r -> sound r.
Proof.
  unfold make_results. destruct (drop_burnin clusters (t_rows t) b) as [cl rows]. intros H.
  repeat match type of H with context [obind ?x _] => destruct x eqn:?; cbn [obind] in H; [|discriminate] end. injection H as <-.
  match goal with H : hd_error _ = Some ?x |- _ => pose proof (features_nodup (t_cols t) (s_ "areal_" ++ x)) as Hf end. cbn [t_cols] in *.
  match goal with H : parse_areal_effect _ _ _ = Some _ |- _ => rename H into Ha end. match goal with H : parse_confounding_effects _ _ _ = Some _ |- _ => rename H into Hc end.
  match goal with H : parse_weights _ _ _ = Some _ |- _ => rename H into Hw end. match goal with H : get_cluster_names _ = Some _ |- _ => rename H into Hg end.
  split; cbn [r_areal_effect r_weights r_features].
  - destruct (dict_of_in Ha) as [E _]. rewrite E, map_id. eapply find_groups_nodup; [|exact Hg]. constructor.
  - destruct (dict_of_in Hw) as [E _]. rewrite E, map_id. exact Hf.
  - intros k p f m Hcomp Hin. unfold component in Hcomp. cbn [r_areal_effect r_confounding_effects] in Hcomp. destruct Hcomp as [Hk|(conf & gs & g & H1 & H2 & _)].
    + destruct (dict_of_in Ha) as [_ G]. destruct (G _ _ Hk) as (a & _ & _ & E). eapply probs_shape; eauto.
    + destruct (dict_of_in Hc) as [_ G]. destruct (G _ _ H1) as (a & _ & _ & E). destruct (dict_of_in E) as [_ G']. destruct (G' _ _ H2) as (a' & _ & _ & E'). eapply probs_shape; eauto.
Qed.
Lemma csv_sound parse c s b r : from_csv_files parse c s b = Some r -> sound r.
Proof.
  unfold from_csv_files. destruct (read_clusters c); [|discriminate]. cbn [obind]. destruct (read_stats parse s); [|discriminate]. cbn [obind]. apply make_sound.
Qed.

(** * The corners *)
Lemma good_new : good_cache new_cache.
Proof. intros n Hn. exists 1%R. apply new_regular. lia. Qed.
Lemma preference_good c add title states samples c' p : good_cache c -> (3 <= n_columns samples -> length states = n_columns samples) ->
  plot_preference c add title states samples = Some (c', p) -> good_cache c'.
Proof.
  intros Hc Hl. unfold plot_preference. destruct (n_columns samples =? 2); [intros [= <- _]; auto|]. destruct (Nat.ltb_spec 2 (n_columns samples)) as [L|L]; [|intros [= <- _]; auto].
  destruct (fill_outside _); [|discriminate]. cbn [option_map]. intros [= <- _]. intros n Hn. unfold set_cache. destruct (Nat.eqb_spec n (n_columns samples)) as [->|]; [|auto].
  destruct (Hc _ Hn) as (s & Hs). destruct add; [|eauto]. exists (1.2 * s)%R. rewrite (stretch_all _ (length states)) by (rewrite Hl by auto; apply Hs). apply regular_scale; [lia|lra|auto].
Qed.
Lemma columns_length m n : Forall (fun row : list Q => length row = n) m -> 3 <= n_columns (as_real m) -> n = n_columns (as_real m).
Proof. unfold n_columns, as_real. intros H. destruct m as [|row m]; simpl; [lia|]. inversion H; subst. rewrite map_length. auto. Qed.
Definition fits (r : results) (prefs : list (str * list (list Q))) : Prop :=
  forall f m, In (f, m) prefs -> exists states, lookup f (r_features r) = Some states /\ Forall (fun row : list Q => length row = length states) m.
Lemma panels_shown add r places : forall prefs c pos c' ps, good_cache c -> fits r prefs -> preference_panels c add r places prefs pos = Some (c', ps) ->
  good_cache c' /\ length ps = length prefs /\
  forall i x w, nth_error prefs i = Some (x, w) -> exists c1 c2 states p, good_cache c1 /\ In (x, states) (r_features r) /\
    nth_error ps i = Some (pos + i, x, p) /\ plot_preference c1 add x states (as_real w) = Some (c2, p).
Proof.
  induction prefs as [|(f & m) prefs IH]; intros c pos c' ps Hc Hf H; cbn [preference_panels] in H.
  { injection H as <- <-. conj; auto. destruct i; discriminate. }
  destruct (places <? pos); [discriminate|]. destruct (states_for_feature r f) as [states|] eqn:Es; [|discriminate]. cbn [obind] in H.
  destruct (plot_preference c add f states (as_real m)) as [(c1 & p)|] eqn:Ep; [|discriminate]. cbn [obind] in H.
  destruct (preference_panels c1 add r places prefs (S pos)) as [(c2 & qs)|] eqn:Eq; [|discriminate]. cbn [obind] in H. injection H as <- <-.
  destruct (Hf f m (or_introl eq_refl)) as (states' & Es' & Hm). unfold states_for_feature in Es. assert (states' = states) by congruence. subst states'.
  assert (G1 : good_cache c1) by (eapply preference_good; [exact Hc| |exact Ep]; intros L; apply columns_length; auto).
  destruct (IH c1 (S pos) c2 qs G1) as (G2 & L & N); [intros f' m' I; apply Hf; right; auto|exact Eq|]. conj; auto; [simpl; lia|].
  intros [|i] x w E; cbn [nth_error] in *.
  - injection E as <- <-. exists c, c1, states, p. rewrite Nat.add_0_r. conj; auto. apply lookup_in. exact Es.
  - destruct (N i x w E) as (d1 & d2 & ss & p' & A1 & A2 & A3 & A4). exists d1, d2, ss, p'. replace (pos + S i) with (S pos + i) by lia. conj; auto.
Qed.
Lemma weight_panels_shown c names : forall ws pos ps, weight_panels c names ws pos = Some ps -> length ps = length ws /\
  forall i x w, nth_error ws i = Some (x, w) -> exists p, nth_error ps i = Some (pos + i, x, p) /\ plot_weight c x names (as_real w) = Some p.
Proof.
  induction ws as [|(f & m) ws IH]; intros pos ps H; cbn [weight_panels] in H; [injection H as <-; conj; auto; destruct i; discriminate|].
  destruct (plot_weight c f names (as_real m)) as [p|] eqn:Ep; [|discriminate]. cbn [obind] in H. destruct (weight_panels c names ws (S pos)) as [qs|] eqn:Eq; [|discriminate]. cbn [obind option_map] in H. injection H as <-.
  destruct (IH _ _ Eq) as [L N]. conj; [simpl; lia|]. intros [|i] x w E; cbn [nth_error] in *.
  - injection E as <- <-. exists p. rewrite Nat.add_0_r. conj; auto.
  - destruct (N i x w E) as (p' & A3 & A4). exists p'. replace (pos + S i) with (S pos + i) by lia. conj; auto.
Qed.

(** * All preferences *)
Lemma set_key_from A (k k' : str) (v v' : A) d : In (k', v') (set_key k v d) -> (k' = k /\ v' = v) \/ In (k', v') d.
Proof.
  unfold set_key. destruct (existsb _ d).
  - intros H. apply in_map_iff in H as ((k1 & v1) & E & H1). cbn [fst] in E. destruct (str_eqb k k1) eqn:E1; [apply str_eqb_eq in E1; left; split; congruence|right; congruence].
  - rewrite in_app_iff. intros [H|[H|[]]]; [auto|left; split; congruence].
Qed.
Lemma set_key_keys A (k k' : str) (v : A) d : In k' (map fst (set_key k v d)) <-> k' = k \/ In k' (map fst d).
Proof.
  unfold set_key. destruct (existsb _ d) eqn:E.
  - rewrite map_map. erewrite (map_ext _ fst) by (intros (k1 & v1); cbn [fst]; destruct (str_eqb k k1); reflexivity).
    split; auto. intros [->|H]; auto. apply existsb_exists in E as ((k1 & v1) & I & E). apply str_eqb_eq in E. cbn [fst] in E. subst k1. change k with (fst (k, v1)). apply in_map. exact I.
  - rewrite map_app, in_app_iff. simpl. intuition.
Qed.
Lemma group_fold A conf (effect : list (str * A)) : forall d,
  (forall k p, In (k, p) (fold_left (fun d '(g, p) => set_key (conf ++ [underscore] ++ g) p d) effect d) -> In (k, p) d \/ exists g, In (g, p) effect /\ k = conf ++ [underscore] ++ g) /\
  (forall k, In k (map fst (fold_left (fun d '(g, p) => set_key (conf ++ [underscore] ++ g) p d) effect d)) <-> In k (map fst d) \/ exists g p, In (g, p) effect /\ k = conf ++ [underscore] ++ g).
Proof.
  induction effect as [|(g & p) effect IH]; intros d; cbn [fold_left].
  - split; [auto|]. intros k. split; [auto|]. intros [H|(g & p & [] & _)]. exact H.
  - destruct (IH (set_key (conf ++ [underscore] ++ g) p d)) as [I1 I2]. split.
    + intros k q H. destruct (I1 _ _ H) as [H1|(g' & H1 & ->)]; [|right; exists g'; simpl; auto]. destruct (set_key_from H1) as [[-> ->]|H2]; auto. right. exists g. simpl. auto.
    + intros k. rewrite I2, set_key_keys. split.
      * intros [[->|H]|(g' & p' & H & ->)]; auto; right; [exists g, p|exists g', p']; simpl; auto.
      * intros [H|(g' & p' & [[= -> ->]|H] & ->)]; auto. right. exists g', p'. auto.
Qed.
Lemma all_preferences_spec r : (forall k p, In (k, p) (all_preferences r) -> component r k p) /\ (forall k, In k (map fst (all_preferences r)) <-> exists p, component r k p).
Proof.
  unfold all_preferences, component.
  assert (G : forall ce d,
    (forall k p, In (k, p) (fold_left (fun d '(conf, effect) => fold_left (fun d '(g, p) => set_key (conf ++ [underscore] ++ g) p d) effect d) ce d) ->
       In (k, p) d \/ exists conf groups g, In (conf, groups) ce /\ In (g, p) groups /\ k = conf ++ s_ "_" ++ g) /\
    (forall k, In k (map fst (fold_left (fun d '(conf, effect) => fold_left (fun d '(g, p) => set_key (conf ++ [underscore] ++ g) p d) effect d) ce d)) <->
       In k (map fst d) \/ exists p conf groups g, In (conf, groups) ce /\ In (g, p : list (str * list (list Q))) groups /\ k = conf ++ s_ "_" ++ g)).
  { induction ce as [|(conf & effect) ce IH]; intros d; cbn [fold_left].
    - split; [auto|]. intros k. split; [auto|]. intros [H|(p & conf & gs & g & [] & _)]. exact H.
    - match goal with |- context [fold_left ?f ce ?d'] => destruct (IH d') as [I1 I2] end. destruct (group_fold conf effect d) as [J1 J2]. split.
      + intros k p H. destruct (I1 _ _ H) as [H1|(conf' & gs & g & A & B & ->)]; [|right; exists conf', gs, g; simpl; auto].
        destruct (J1 _ _ H1) as [H2|(g & H2 & ->)]; auto. right. exists conf, effect, g. simpl. auto.
      + intros k. rewrite I2, J2. split.
        * intros [[H|(g & p & H & ->)]|(p & conf' & gs & g & A & B & ->)]; auto; right; [exists p, conf, effect, g|exists p, conf', gs, g]; simpl; auto.
        * intros [H|(p & conf' & gs & g & [[= -> ->]|A] & B & ->)]; auto; [left; right; exists g, p; auto|right; exists p, conf', gs, g; auto]. }
  destruct (G (r_confounding_effects r) (r_areal_effect r)) as [G1 G2]. split; auto. intros k. rewrite G2. split.
  - intros [H|(p & conf & gs & g & H)]; [apply in_map_iff in H as ((k' & p) & <- & H); exists p; auto|exists p; right; eauto].
  - intros (p & [H|(conf & gs & g & H)]); [left; change k with (fst (k, p)); apply in_map; auto|right; exists p; eauto].
Qed.

(** * Actions *)
Section Does.
(** [a] writes files with names of [W] and pictures of [P] only, and all of them if it ends. *)
Definition does (W : str -> Prop) (P : str -> picture -> Prop) (a : action) : Prop := forall st st' ok, good_cache (ps_cache st) -> a st = (st', ok) ->
  good_cache (ps_cache st') /\ ps_results st' = ps_results st /\
  (forall n, lookup n (ps_files st') = lookup n (ps_files st) \/ W n /\ exists p, lookup n (ps_files st') = Some p /\ P n p) /\
  (ok = true -> forall n, W n -> exists p, lookup n (ps_files st') = Some p /\ P n p).
Variable P : str -> picture -> Prop.
Lemma does_iff W W' a : (forall n, W n <-> W' n) -> does W P a -> does W' P a.
Proof.
  intros H D st st' ok Hc E. destruct (D st st' ok Hc E) as (A & B & C & F). conj; auto.
  - intros n. destruct (C n) as [|(X & Y)]; auto. right. split; auto. apply H. exact X.
  - intros O n Wn. apply F; auto. apply H. exact Wn.
Qed.
Lemma does_skip : does (fun _ => False) P skip.
Proof. intros st st' ok Hc [= <- <-]. conj; auto. intros _ n []. Qed.
Lemma does_raise W : does W P raise.
Proof. intros st st' ok Hc [= <- <-]. conj; auto. discriminate. Qed.
Lemma does_andthen W1 W2 a b : does W1 P a -> does W2 P b -> does (fun n => W1 n \/ W2 n) P (andthen a b).
Proof.
  intros D1 D2 st st' ok Hc E. unfold andthen in E. destruct (a st) as [s1 o1] eqn:E1. destruct (D1 _ _ _ Hc E1) as (A1 & B1 & C1 & F1).
  destruct o1.
  - destruct (D2 _ _ _ A1 E) as (A2 & B2 & C2 & F2). conj; auto; try congruence.
    + intros n. destruct (C2 n) as [X|(X & Y)]; [|right; auto]. destruct (C1 n) as [Z|(Z & Y)]; [left; congruence|]. right. rewrite X. auto.
    + intros O n [Wn|Wn]; [|auto]. destruct (C2 n) as [X|(X & Y)]; [|auto]. rewrite X. apply F1; auto.
  - injection E as <- <-. conj; auto.
    + intros n. destruct (C1 n) as [Z|(Z & Y)]; auto.
    + discriminate.
Qed.
Lemma does_when W b a : (b = true -> does W P a) -> does (fun n => b = true /\ W n) P (when b a).
Proof.
  intros D. unfold when. destruct b.
  - eapply does_iff; [|exact (D eq_refl)]. intuition.
  - eapply does_iff; [|apply does_skip]. intuition discriminate.
Qed.
Lemma does_save name p : P name p -> does (eq name) P (save name p).
Proof.
  intros H st st' ok Hc E. unfold save in E. destruct (existsb _ name); injection E as <- <-; [conj; auto; discriminate|]. cbn [ps_cache ps_results ps_files]. conj; auto.
  - intros n. rewrite lookup_set. destruct (str_eqb n name) eqn:Es; auto. apply str_eqb_eq in Es. subst n. right. split; auto. exists p. auto.
  - intros _ n <-. rewrite lookup_set, str_eqb_refl. exists p. auto.
Qed.
Lemma does_keep c : good_cache c -> does (fun _ => False) P (keep_cache c).
Proof. intros H st st' ok Hc [= <- <-]. cbn [ps_cache ps_results ps_files]. conj; auto. intros _ n []. Qed.
Lemma does_ext W a b : (forall st, a st = b st) -> does W P a -> does W P b.
Proof. intros H D st st' ok Hc E. apply D; auto. rewrite H. exact E. Qed.
(** The action depends on the state. *)
Lemma does_state W (f : plot_state -> action) : (forall st, good_cache (ps_cache st) -> does W P (f st)) -> does W P (fun st => f st st).
Proof. intros H st st' ok Hc E. exact (H st Hc st st' ok Hc E). Qed.
End Does.

Lemma all_opt_forall2 A B (f : A -> option B) l r : all_opt (map f l) = Some r -> Forall2 (fun a b => f a = Some b) l r.
Proof.
  revert r. induction l as [|a l IH]; intros r H; cbn [map all_opt] in H; [injection H as <-; constructor|]. destruct (f a) as [b|] eqn:E; [|discriminate].
  destruct (all_opt (map f l)) as [r'|] eqn:E'; [|discriminate]. injection H as <-. constructor; auto.
Qed.

Section Plots.
Variable delaunay : list point -> list (list bool).
Variable parse : str -> option Q.
Variable locations : list point.
Variable names : list str.
Variable each : list Q -> list bmat -> option (list graph).
Variable cfg : plot_config.
Hypothesis Hone : pc_type cfg = s_ "consensus_map" -> exists q text, pc_frequency cfg = One q text.
Notation shows := (shows delaunay locations names cfg).
Section Model.
Variable P : str -> picture -> Prop.
Variables (m : str) (r : results).
Hypothesis Hs : sound r.
Hypothesis HP : forall k p, requested cfg r k -> shows r k p -> P (file_of cfg m k) p.

Lemma does_map : requested cfg r KMap -> does (eq (file_of cfg m KMap)) P (plot_map delaunay locations each cfg m r).
Proof.
  intros Hr. assert (S1 : forall t gs, configured cfg t -> model_graphs delaunay locations cfg t r = Some gs -> P (file_of cfg m KMap) (PMap gs)).
  { intros t gs Ht E. apply HP; auto. cbn [shows]. exists t. split; auto. apply all_opt_forall2. exact E. }
  assert (Aux : forall gs n, n = file_of cfg m KMap -> (forall g, gs = Some g -> P (file_of cfg m KMap) (PMap g)) ->
    does (eq (file_of cfg m KMap)) P (match gs with None => raise | Some g => save n (PMap g) end)).
  { intros gs n -> H. destruct gs as [g|]; [apply does_save; auto|apply does_raise]. }
  unfold plot_map, posterior_map. destruct (str_eqb (pc_type cfg) (s_ "density_map")) eqn:E1.
  - apply Aux; [unfold file_of; rewrite E1; rewrite <- !app_assoc; reflexivity|]. intros g Hg. eapply S1; [|exact Hg]. left. split; auto. apply str_eqb_eq. exact E1.
  - destruct (str_eqb (pc_type cfg) (s_ "consensus_map")) eqn:E2; [|apply does_raise]. apply str_eqb_eq in E2.
    apply Aux; [unfold file_of; rewrite E1; rewrite <- !app_assoc; reflexivity|]. destruct (Hone E2) as (q & text & Eq). rewrite Eq. cbn [graphs_with].
    intros g Hg. eapply S1; [|exact Hg]. right. split; eauto.
Qed.
Lemma does_weights : requested cfg r KWeights -> does (eq (file_of cfg m KWeights)) P (weights_action cfg m r).
Proof.
  intros Hr. unfold weights_action.
  set (fig := fun st => plot_weights (ps_cache st) (pc_weight_features cfg) (pc_weight_names cfg) (pc_weight_cols cfg) (s_ "weights_grid_" ++ m) (pc_weight_format cfg) (r_weights r)).
  apply does_ext with (fun st => (fun st0 => match fig st0 with None => raise | Some f => save (fg_file f) (PWeights f) end) st st); [intros st; unfold fig; destruct (plot_weights _ _ _ _ _ _ _); reflexivity|].
  apply does_state. intros st Hc. destruct (fig st) as [f|] eqn:E; [|apply does_raise]. unfold fig, plot_weights in E. clear fig.
  destruct (match pc_weight_features cfg with [] => Some (r_weights r) | _ => _ end) as [ws|] eqn:Ew; [|discriminate]. cbn [obind] in E.
  destruct (grid (length ws) (pc_weight_cols cfg)) as [(n_row & off)|] eqn:Eg; [|discriminate]. cbn [obind] in E.
  destruct (weight_panels (ps_cache st) (pc_weight_names cfg) ws 1) as [ps|] eqn:Ep; [|discriminate]. cbn [obind] in E. injection E as <-. cbn [fg_file].
  match goal with |- does _ _ (save ?n _) => change n with (file_of cfg m KWeights) end. apply does_save. apply HP; auto. cbn [S_plotfiles.shows]. split; [reflexivity|]. cbn [fg_panels]. exists (ps_cache st), ws.
  destruct (weight_panels_shown Ep) as [L N].
  assert (G : NoDup (map fst ws) /\ (forall e, In e ws -> In e (r_weights r)) /\
     (forall x, In x (map fst ws) <-> match pc_weight_features cfg with [] => In x (map fst (r_weights r)) | fs => In x fs end)).
  { destruct (pc_weight_features cfg) as [|f0 fs].
    - injection Ew as <-. split; [apply (so_weights Hs)|]. split; [auto|tauto].
    - revert Ew. generalize (f0 :: fs). intros l Ew. destruct (all_opt _) as [d|] eqn:Ed; [|discriminate]. cbn [option_map] in Ew. injection Ew as <-.
      destruct (results_spec d) as [R1 R2]. apply all_opt_forall2 in Ed.
      assert (Hin : forall e, In e d -> In e (r_weights r) /\ In (fst e) l).
      { clear - Ed. induction Ed as [|f e l d E Ed IH]; intros e' []; [subst e'|destruct (IH e' H); simpl; auto]. destruct (lookup f (r_weights r)) as [w|] eqn:El; [|discriminate]. injection E as <-. split; [apply lookup_in; auto|simpl; auto]. }
      assert (Hout : forall x, In x l -> In x (map fst d)).
      { clear - Ed. induction Ed as [|f e l d E Ed IH]; intros x []; [subst x|right; apply IH; auto]. destruct (lookup f (r_weights r)) as [w|]; [|discriminate]. injection E as <-. simpl. auto. }
      assert (Hlast : forall x, In x (map fst d) -> exists v, last_entry d x v).
      { clear. induction d as [|(k & v) d IH] using rev_ind; intros x H; [destruct H|]. destruct (list_eq_dec ascii_dec x k) as [->|Ne]; [exists v, d, []; auto|].
        rewrite map_app, in_app_iff in H. destruct H as [H|[H|[]]]; [|simpl in H; congruence]. destruct (IH _ H) as (w & b & a & -> & Na). exists w, b, (a ++ [(k, v)]). rewrite <- app_assoc. split; auto.
        rewrite map_app, in_app_iff. simpl. intuition. }
      assert (Hfrom : forall k v, In (k, v) (results_dict d) -> In (k, v) d).
      { intros k v H. apply R2 in H as (b & a & -> & _). rewrite in_app_iff. simpl. auto. }
      split; [exact R1|]. split; [|intros x; split].
      + intros (k & v) H. apply Hin, Hfrom, H.
      + intros H. apply in_map_iff in H as ((k & v) & <- & H). apply (Hin (k, v)), Hfrom, H.
      + intros H. destruct (Hlast x (Hout x H)) as (v & Hv). apply R2 in Hv. change x with (fst (x, v)). apply in_map. exact Hv. }
  destruct G as (G1 & G2 & G3). split; [exact Hc|]. split; [exact G1|]. split; [exact G2|]. split; [exact G3|]. split; [exact L|exact N].
Qed.
Lemma does_prefs n_row off : forall prefs, (forall k p, In (k, p) prefs -> component r k p /\ requested cfg r (KPreference k)) ->
  does (fun n => exists k, In k (map fst prefs) /\ n = file_of cfg m (KPreference k)) P (preference_actions cfg r n_row off (s_ "prob_grid_" ++ m) prefs).
Proof.
  induction prefs as [|(k & p) prefs IH]; intros H.
  { eapply does_iff; [|apply does_skip]. intros n. split; [intros []|intros (k & [] & _)]. }
  cbn [preference_actions]. 
  set (f := fun st => match preference_figures (ps_cache st) (pc_pref_add cfg) r (pc_pref_cols cfg) n_row off (s_ "prob_grid_" ++ m) (pc_pref_format cfg) [(k, p)] with
    | None => raise
    | Some (c, fs) => andthen (keep_cache c) (andthen (fold_right (fun f a => andthen (save (fg_file f) (PPreference f)) a) skip fs) (preference_actions cfg r n_row off (s_ "prob_grid_" ++ m) prefs))
    end).
  assert (D : does (fun n => exists k0, In k0 (map fst ((k, p) :: prefs)) /\ n = file_of cfg m (KPreference k0)) P (fun st => f st st)).
  { apply does_state. intros st Hc. unfold f. cbn [preference_figures]. destruct (preference_panels (ps_cache st) (pc_pref_add cfg) r (n_row * pc_pref_cols cfg) p 1) as [(c & ps)|] eqn:E; [|apply does_raise]. cbn [obind].
    destruct (H k p (or_introl eq_refl)) as [Hk Hq]. destruct (panels_shown Hc (fun f0 m0 => so_states Hs Hk) E) as (G & L & N).
    eapply does_iff; [|apply does_andthen; [apply does_keep; exact G|apply does_andthen; [cbn [fold_right]; apply does_andthen; [apply does_save|apply does_skip]|apply IH; intros k' p' I; apply H; right; exact I]]].
    - intros n. cbn [fg_file]. split.
      + intros [[]|[[<-|[]]|(k' & I & ->)]]; [exists k|exists k'; split; [right; auto|auto]]. split; [left; auto|]. cbn [file_of]. rewrite <- !app_assoc. reflexivity.
      + intros (k' & [<-|I] & ->); [|right; right; exists k'; auto]. right. left. left. cbn [file_of fst]. rewrite <- !app_assoc. reflexivity.
    - cbn [fg_file]. assert (En : (s_ "prob_grid_" ++ m) ++ [underscore] ++ k ++ dot :: pc_pref_format cfg = file_of cfg m (KPreference k)) by (cbn [file_of]; rewrite <- !app_assoc; reflexivity).
      rewrite En. apply HP; auto. cbn [S_plotfiles.shows]. split; [reflexivity|]. exists p. cbn [fg_panels]. split; [exact Hk|]. split; [exact L|exact N]. }
  intros st st' ok Hc E. apply (D st st' ok Hc). rewrite <- E. unfold f.
  destruct (preference_figures _ _ _ _ _ _ _ _ [(k, p)]) as [(c & fs)|]; reflexivity.
Qed.
Lemma selected_spec k p : In (k, p) (selected (pc_pref_which cfg) (all_preferences r)) -> component r k p /\ (pc_pref_which cfg <> [] -> In k (pc_pref_which cfg)).
Proof.
  unfold selected. destruct (pc_pref_which cfg) as [|w ws]; [intros H; split; [apply all_preferences_spec; auto|congruence]|].
  intros H. apply filter_In in H as [H E]. split; [apply all_preferences_spec; auto|]. intros _. apply mem_In. exact E.
Qed.
Lemma selected_all k : (exists p, component r k p) -> (pc_pref_which cfg <> [] -> In k (pc_pref_which cfg)) -> In k (map fst (selected (pc_pref_which cfg) (all_preferences r))).
Proof.
  intros H Hw. apply all_preferences_spec in H. unfold selected. destruct (pc_pref_which cfg) as [|w ws]; auto. apply in_map_iff in H as ((k' & p) & <- & H).
  apply in_map. apply filter_In. split; auto. apply mem_In. apply Hw. discriminate.
Qed.
Lemma does_preferences : pc_plotted cfg (s_ "preference_plot") = true ->
  does (fun n => exists k, requested cfg r (KPreference k) /\ n = file_of cfg m (KPreference k)) P (preferences_action cfg m r).
Proof.
  intros Hr. assert (Hsel : forall n, (exists k, In k (map fst (selected (pc_pref_which cfg) (all_preferences r))) /\ n = file_of cfg m (KPreference k)) <->
    (exists k, requested cfg r (KPreference k) /\ n = file_of cfg m (KPreference k))).
  { intros n. split; intros (k & H & ->); exists k; (split; [|auto]).
    - apply in_map_iff in H as ((k' & p) & <- & H). apply selected_spec in H as [H1 H2]. cbn [requested fst]. eauto.
    - destruct H as (_ & H1 & H2). apply selected_all; auto. }
  unfold preferences_action. destruct (grid _ _) as [(n_row & off)|].
  - eapply does_iff; [exact Hsel|]. apply does_prefs. intros k p H. destruct (selected_spec H) as [H1 H2]. split; auto. cbn [requested]. eauto.
  - destruct (selected _ _) as [|e l] eqn:E; [|apply does_raise]. destruct (pc_pref_cols cfg =? 0); [apply does_raise|]. eapply does_iff; [|apply does_skip].
    intros n. rewrite <- Hsel. split; [intros []|intros (k & [] & _)].
Qed.
Lemma does_pies : requested cfg r KPies -> does (eq (file_of cfg m KPies)) P (pies_action names cfg m r).
Proof.
  intros Hr. unfold pies_action. destruct (plot_pies _ _ _ _) as [ps|] eqn:E; [|apply does_raise].
  assert (En : s_ "plot_pies_" ++ m ++ dot :: pc_pie_format cfg = file_of cfg m KPies) by reflexivity. rewrite En. apply does_save, HP; auto.
Qed.
Lemma row_good add feature comp cols row : forall groups c col c' ps, good_cache c -> (forall g by_f, In (g, by_f) groups -> fits r by_f) ->
  feature_row c add r feature comp cols row col groups = Some (c', ps) -> good_cache c'.
Proof.
  induction groups as [|(g & by_f) groups IH]; intros c col c' ps Hc Hg H; cbn [feature_row] in H; [injection H as <- _; auto|].
  destruct (cols <=? col); [discriminate|]. destruct (lookup feature by_f) as [sm|] eqn:El; [|discriminate]. cbn [obind] in H. destruct (states_for_feature r feature) as [states|] eqn:Es; [|discriminate]. cbn [obind] in H.
  destruct (plot_preference c add (group_title comp g) states (as_real sm)) as [(c1 & p)|] eqn:Ep; [|discriminate]. cbn [obind] in H.
  destruct (feature_row c1 add r feature comp cols row (S col) groups) as [(c2 & qs)|] eqn:Eq; [|discriminate]. cbn [obind] in H. injection H as <- _.
  eapply IH; [|intros g' b I; apply (Hg g' b); right; exact I|exact Eq]. eapply preference_good; [exact Hc| |exact Ep]. intros L.
  destruct (Hg g by_f (or_introl eq_refl) _ _ (lookup_in El)) as (states' & E1 & F). unfold states_for_feature in Es. assert (states' = states) by congruence. subst. apply columns_length; auto.
Qed.
Lemma rows_good add feature cols : forall prefs c row c' ps, good_cache c -> (forall comp groups g by_f, In (comp, groups) prefs -> In (g, by_f) groups -> fits r by_f) ->
  feature_rows c add r feature cols row prefs = Some (c', ps) -> good_cache c'.
Proof.
  induction prefs as [|(comp & groups) prefs IH]; intros c row c' ps Hc Hg H; cbn [feature_rows] in H; [injection H as <- _; auto|].
  destruct (feature_row c add r feature comp cols row 2 groups) as [(c1 & p)|] eqn:Ep; [|discriminate]. cbn [obind] in H.
  destruct (feature_rows c1 add r feature cols (S row) prefs) as [(c2 & qs)|] eqn:Eq; [|discriminate]. cbn [obind] in H. injection H as <- _.
  eapply IH; [|intros comp' gs g b I J; apply (Hg comp' gs g b); [right; exact I|exact J]|exact Eq]. eapply row_good; [exact Hc| |exact Ep]. intros g by_f I. apply (Hg comp groups g by_f); simpl; auto.
Qed.
Lemma does_feature : does (fun _ => False) P (feature_action cfg r).
Proof.
  unfold feature_action. set (f := fun st => match pc_feature cfg with None => skip | Some f => match plot_weights_and_prefs (ps_cache st) (pc_feature_add cfg) (pc_feature_names cfg) f r with None => raise | Some (c, _) => keep_cache c end end).
  apply does_ext with (fun st => f st st).
  { intros st. unfold f. destruct (pc_feature cfg); auto. destruct (plot_weights_and_prefs _ _ _ _ _) as [(c & ps)|]; auto. }
  apply does_state. intros st Hc. unfold f. destruct (pc_feature cfg) as [x|]; [|apply does_skip]. destruct (plot_weights_and_prefs _ _ _ _ _) as [(c & ps)|] eqn:E; [|apply does_raise].
  apply does_keep. unfold plot_weights_and_prefs in E. destruct (r_confounders r) as [|cf cfs]; [discriminate|]. destruct (lookup x (r_weights r)); [|discriminate]. cbn [obind] in E.
  destruct (plot_weight _ _ _ _); [|discriminate]. cbn [obind] in E. destruct (feature_rows _ _ _ _ _ _ _) as [(c' & qs)|] eqn:Eq; [|discriminate]. cbn [obind] in E. injection E as <- _.
  eapply rows_good; [exact Hc| |exact Eq]. intros comp groups g by_f I J f0 m0 K. unfold feature_preferences in I.
  destruct (set_key_from I) as [[-> ->]|I']; [apply (so_states Hs (k := g) (p := by_f)); [left; auto|auto]|].
  apply (so_states Hs (k := comp ++ s_ "_" ++ g) (p := by_f)); [right; exists comp, groups, g; auto|auto].
Qed.
(** All plots of a model. *)
Definition plots : action :=
  andthen (when (pc_plotted cfg (s_ "map")) (plot_map delaunay locations each cfg m r))
  (andthen (when (pc_plotted cfg (s_ "weights_plot")) (weights_action cfg m r))
  (andthen (when (pc_plotted cfg (s_ "preference_plot")) (preferences_action cfg m r))
  (andthen (when (pc_plotted cfg (s_ "pie_plot")) (pies_action names cfg m r))
           (when (pc_plotted cfg (s_ "feature_plot")) (feature_action cfg r))))).
Lemma does_plots : does (fun n => exists k, requested cfg r k /\ n = file_of cfg m k) P plots.
Proof.
  eapply does_iff; [|unfold plots; apply does_andthen; [apply does_when; intros H; apply does_map; exact H|apply does_andthen; [apply does_when; intros H; apply does_weights; exact H|
    apply does_andthen; [apply does_when; intros H; apply does_preferences; exact H|apply does_andthen; [apply does_when; intros H; apply does_pies; exact H|apply does_when; intros H; apply does_feature]]]]].
  intros n. cbn beta. split.
  - intros [[H <-]|[[H <-]|[[H (k & H1 & ->)]|[[H <-]|[_ []]]]]]; [exists KMap|exists KWeights|exists (KPreference k)|exists KPies]; auto.
  - intros (k & H & ->). destruct k as [| |c|]; [left; split; auto|right; left; split; auto|right; right; left; split; [apply H|exists c; auto]|right; right; right; left; split; auto].
Qed.
End Model.

(** * The loop *)
Variable read : path -> option str.
Notation read_model := (read_model parse cfg read).
Lemma read_sound cs r : read_model cs = Some r -> sound r.
Proof.
  unfold M_plotrun.read_model. destruct (read (fst cs)); [|discriminate]. cbn [obind]. destruct (read (snd cs)); [|discriminate]. cbn [obind]. apply csv_sound.
Qed.
Lemma loop_does (P : str -> picture -> Prop) : forall ms, (forall m cs r k p, In (m, cs) ms -> read_model cs = Some r -> requested cfg r k -> shows r k p -> P (file_of cfg m k) p) ->
  forall st st' ok, good_cache (ps_cache st) -> model_actions delaunay parse locations names each cfg read ms st = (st', ok) ->
  (forall n, lookup n (ps_files st') = lookup n (ps_files st) \/
     (exists m cs r k, In (m, cs) ms /\ read_model cs = Some r /\ requested cfg r k /\ n = file_of cfg m k) /\ exists p, lookup n (ps_files st') = Some p /\ P n p) /\
  (ok = true -> 
   (forall m cs r k, In (m, cs) ms -> read_model cs = Some r -> requested cfg r k -> exists p, lookup (file_of cfg m k) (ps_files st') = Some p /\ P (file_of cfg m k) p) /\
   exists rs, Forall2 (fun mc mr => fst mc = fst mr /\ read_model (snd mc) = Some (snd mr)) ms rs /\ ps_results st' = fold_left (fun d mr => set_key (fst mr) (snd mr) d) rs (ps_results st)).
Proof.
  induction ms as [|(m & cs) ms IH]; intros HP st st' ok Hc E; cbn [model_actions] in E.
  { injection E as <- <-. split; [auto|]. intros _. split; [intros m cs r k []|exists []; split; [constructor|reflexivity]]. }
  destruct (read_model cs) as [r|] eqn:Er; [|injection E as <- <-; split; [auto|discriminate]].
  unfold andthen at 1 in E. destruct (model_action delaunay locations names each cfg m r st) as [s1 o1] eqn:E1.
  change (plots m r {| ps_files := ps_files st; ps_cache := ps_cache st; ps_results := set_key m r (ps_results st) |} = (s1, o1)) in E1.
  assert (HP1 : forall k p, requested cfg r k -> shows r k p -> P (file_of cfg m k) p) by (intros k p; apply (HP m cs); simpl; auto).
  assert (Hc1 : good_cache (ps_cache {| ps_files := ps_files st; ps_cache := ps_cache st; ps_results := set_key m r (ps_results st) |})) by exact Hc.
  destruct (does_plots (read_sound Er) HP1 Hc1 E1) as (A1 & B1 & C1 & F1). cbn [ps_files ps_cache ps_results] in A1, B1, C1, F1.
  destruct o1.
  - destruct (IH (fun m' cs' r' k p I => HP m' cs' r' k p (or_intror I)) s1 st' ok A1 E) as [C2 F2]. split.
    + intros n. destruct (C2 n) as [X|((m' & cs' & r' & k & I & J) & Y)].
      * destruct (C1 n) as [Z|((k & K & ->) & Y)]; [left; congruence|]. right. rewrite X. split; auto. exists m, cs, r, k. simpl. auto.
      * right. split; auto. exists m', cs', r', k. simpl. auto.
    + intros O. destruct (F2 O) as [F3 (rs & G1 & G2)]. split.
      * intros m' cs' r' k [[= <- <-]|I] Er' Hk; [|eapply F3; eauto]. assert (r' = r) by congruence. subst r'.
        destruct (C2 (file_of cfg m k)) as [X|(_ & Y)]; [|exact Y]. rewrite X. apply F1; auto. exists k. auto.
      * exists ((m, r) :: rs). split; [constructor; auto|]. cbn [fold_left fst snd]. rewrite G2, B1. reflexivity.
  - injection E as <- <-. split; [|discriminate]. intros n. destruct (C1 n) as [Z|((k & K & ->) & Y)]; auto. right. split; auto. exists m, cs, r, k. simpl. auto.
Qed.
End Plots.

(** * Names of files *)
Lemma us_digit : ~ digit_char "_"%char.
Proof. vm_compute. intuition discriminate. Qed.
Lemma dot_digit : ~ digit_char "."%char.
Proof. vm_compute. intuition discriminate. Qed.
Lemma run_name_app r r' c x y : ~ digit_char c -> run_name r ++ c :: x = run_name r' ++ c :: y -> r = r' /\ x = y.
Proof.
  intros Hd E. destruct r as (k & i), r' as (k' & i'). unfold run_name in E. cbn [fst snd] in E. rewrite <- !app_assoc in E. apply app_inv_head in E.
  apply (@cut_inj "_"%char) in E; try (apply str_nat_no; apply us_digit). destruct E as [E1 E].
  apply (@cut_inj c) in E; try (apply str_nat_no; exact Hd). destruct E as [E2 E3]. apply str_nat_inj in E1, E2. split; congruence.
Qed.
Lemma file_of_inj cfg r k r' k' : file_of cfg (run_name r) k = file_of cfg (run_name r') k' -> r = r' /\ k = k'.
Proof.
  assert (D := dot_digit). assert (U := us_digit). destruct k as [| |c|], k' as [| |c'|]; try (intros E; exfalso; discriminate E); cbn [file_of]; intros E; apply app_inv_head in E.
  - destruct (str_eqb _ _).
    + apply (run_name_app D) in E as [-> _]. auto.
    + apply (run_name_app U) in E as [-> _]. auto.
  - apply (run_name_app D) in E as [-> _]. auto.
  - apply (run_name_app U) in E as [-> E]. split; auto. f_equal. rewrite !app_assoc in E. do 2 apply app_inv_tail in E. exact E.
  - apply (run_name_app D) in E as [-> _]. auto.
Qed.
Lemma dic_other cfg r k fmt : file_of cfg (run_name r) k <> s_ "dic" ++ s_ "." ++ fmt.
Proof. destruct k; intros E; discriminate E. Qed.
