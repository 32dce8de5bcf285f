(** C93, continued: the figures of weights and preferences of a whole analysis. *)
From Coq Require Import Lra Lia.
From Verif Require Import L_model S_plot2 L_plot2 L_params_log L_names P_loggers P_results M_simplex S_simplex L_simplex P_simplex.
Open Scope nat_scope.

(** * Specification *)
(** The corners of all numbers of states are regular polygons (of some size, C93_scale). *)
Definition fit (c : cache) : Prop := forall n, 3 <= n -> exists s, regular s n (c n).
(** What has its own preferences: a cluster or a group of a confounder. *)
Inductive component := Cluster (a : nat) | Group (c g : nat).
Section Figures.
Variables (d : names) (K : nat) (val : lsample -> column -> Q) (xs : list lsample).
Definition component_rows (k : component) (f : nat) : list (list Q) :=
  match k with
  | Cluster a => rows_of val xs (CAreal a f) (length (states d f))
  | Group c g => rows_of val xs (CConf c g f) (length (states d f))
  end.
Definition name_of_component (k : component) : str :=
  match k with Cluster a => s_ "a" ++ str_nat (a + 1) | Group c g => confounder d c ++ [underscore] ++ group d c g end.
Definition components : list component :=
  map Cluster (seq 0 K) ++ flat_map (fun c => map (Group c) (seq 0 (length (groups d c)))) (seq 0 (length (d_confs d))).
(** One panel per entry [l] in reading order, on the smallest grid with the given number of columns; the axes of the other places
    are switched off. *)
Definition laid_out (n_col : nat) (l : list str) (ok : nat -> panel -> Prop) (fg : figure) : Prop :=
  fg_cols fg = n_col /\ (fg_rows fg - 1) * n_col < length l <= fg_rows fg * n_col /\
  (forall p, In p (fg_off fg) <-> length l < p <= fg_rows fg * n_col) /\ NoDup (fg_off fg) /\
  length (fg_panels fg) = length l /\
  forall i x, nth_error l i = Some x -> exists p, nth_error (fg_panels fg) i = Some (i + 1, x, p) /\ ok i p.
End Figures.
(** The weights of a feature: every sample as centre of mass in a regular polygon, nothing hidden. *)
Definition shows_weights (title : str) (n : nat) (rows : list (list Q)) (p : panel) : Prop :=
  exists sp s, p = Simplex sp /\ sp_title sp = title /\ regular s n (sp_polygon sp) /\
    sp_points sp = map (fun w => mix w (sp_polygon sp)) (as_real rows).

(** * Grids *)
Lemma grid_spec n m : 1 <= n -> 1 <= m -> exists rows off, grid n m = Some (rows, off) /\ (rows - 1) * m < n <= rows * m /\ 1 <= rows /\
  (forall p, In p off <-> n < p <= rows * m) /\ NoDup off.
Proof.
  intros Hn Hm. unfold grid. destruct (Nat.eqb_spec m 0); [lia|]. destruct (Nat.eqb_spec n 0); [lia|]. cbn [orb].
  set (rows := (n + m - 1) / m). do 2 eexists. split; [reflexivity|].
  assert (H1 : m * rows <= n + m - 1 < m * rows + m).
  { unfold rows. pose proof (Nat.div_mod (n + m - 1) m ltac:(lia)) as E. pose proof (Nat.mod_upper_bound (n + m - 1) m ltac:(lia)). lia. }
  assert (H0 : 1 <= rows) by (destruct rows; lia).
  split; [rewrite Nat.mul_sub_distr_r; lia|]. split; [exact H0|]. split.
  - intros p. rewrite in_map_iff. split.
    + intros (e & <- & He). apply in_seq in He. lia.
    + intros Hp. exists (rows * m + 1 - p). split; [lia|]. apply in_seq. lia.
  - apply NoDup_map_inj; [|apply seq_NoDup]. intros x y Hx Hy. apply in_seq in Hx, Hy. lia.
Qed.

(** * One panel of preferences *)
Lemma map_length_rows (rows : list (list Q)) n : Forall (fun r => length r = n) rows -> Forall (fun r : list R => length r = n) (as_real rows).
Proof. intros H. unfold as_real. apply Forall_map. eapply Forall_impl; [|exact H]. intros r Hr. simpl. rewrite map_length. auto. Qed.
Lemma rows_columns (rows : list (list Q)) n : rows <> [] -> Forall (fun r => length r = n) rows -> n_columns (as_real rows) = n.
Proof. intros Hne H. destruct rows as [|r rows]; [congruence|]. inversion H; subst. unfold n_columns, as_real. simpl. apply map_length. Qed.
Lemma preference_panel c add title labels rows n : fit c -> rows <> [] -> Forall (fun r => length r = n) rows -> 1 <= n -> length labels = n ->
  exists c' p, plot_preference c add title labels (as_real rows) = Some (c', p) /\ fit c' /\ shows title (if add then labels else []) n rows p.
Proof.
  intros Hc Hne HF Hn HL. unfold plot_preference. rewrite (rows_columns rows n Hne HF).
  destruct (Nat.eqb_spec n 2) as [E2|E2].
  - subst n. do 2 eexists. split; [reflexivity|]. split; [exact Hc|]. unfold shows. rewrite E2. f_equal. destruct add; [|reflexivity].
    destruct labels as [|a [|b [|]]]; try discriminate. reflexivity.
  - destruct (Nat.ltb_spec 2 n) as [Hm|Hm].
    2:{ assert (n = 1) as -> by lia. do 2 eexists. split; [reflexivity|]. split; [exact Hc|]. reflexivity. }
    destruct (Hc n Hm) as (s & Hs). destruct (fill_regular s n (c n) Hm Hs) as (lines & ->). cbn [option_map].
    assert (HLc : length (c n) = n) by apply Hs.
    do 2 eexists. split; [reflexivity|]. split.
    + intros m Hm'. unfold set_cache. destruct (Nat.eqb_spec m n) as [->|Hne']; [|auto]. destruct add; [|eauto].
      rewrite stretch_all by congruence. exists (1.2 * s)%R. apply regular_scale; auto; lra || lia.
    + unfold shows. destruct n as [|[|[|n]]]; try lia. eexists. exists s. split; [reflexivity|].
      cbn [sp_title sp_polygon sp_points sp_labels]. split; [reflexivity|]. split; [exact Hs|].
      split; [apply map_ext; intros; apply project_mix|]. destruct add.
      * rewrite stretch_all by congruence. split.
        -- intros i [xy l] Hi. set (m := S (S (S n))) in *.
           assert (Hlt : i < m) by (assert (H : nth_error (combine (map (pscale 1.2) (c m)) (map break_label_keep labels)) i <> None) by (rewrite Hi; discriminate);
             apply nth_error_Some in H; rewrite combine_length, !map_length in H; lia).
           destruct (nth_error labels i) as [x|] eqn:Ex; [|apply nth_error_None in Ex; lia].
           exists x. split; [reflexivity|].
           assert (Hcomb : nth_error (combine (map (pscale 1.2) (c m)) (map break_label_keep labels)) i =
             Some (pscale 1.2 (nth i (c m) (0, 0)%R), break_label_keep x)).
           { rewrite nth_error_nth' with (d := (pscale 1.2 (0, 0)%R, break_label_keep [])) by (rewrite combine_length, !map_length; lia).
             rewrite combine_nth by (rewrite !map_length; lia). rewrite !map_nth. do 3 f_equal. apply nth_error_nth. exact Ex. }
           rewrite Hcomb in Hi. injection Hi as <- <-. auto.
        -- rewrite combine_length, !map_length. lia.
      * split; [|reflexivity]. intros [|i] l Hi; discriminate.
Qed.
Lemma weight_panel c title names rows n : fit c -> 3 <= n -> rows <> [] -> Forall (fun r => length r = n) rows ->
  exists p, plot_weight c title names (as_real rows) = Some p /\ shows_weights title n rows p.
Proof.
  intros Hc Hn Hne HF. unfold plot_weight. rewrite (rows_columns rows n Hne HF).
  destruct (Hc n Hn) as (s & Hs). destruct (fill_regular s n (c n) Hn Hs) as (lines & ->). cbn [option_map].
  eexists. split; [reflexivity|]. eexists. exists s. split; [reflexivity|]. cbn [sp_title sp_polygon sp_points].
  split; [reflexivity|]. split; [exact Hs|]. apply map_ext. intros. apply project_mix.
Qed.

(** * All preferences *)
Section Results.
Variables (d : names) (K : nat) (val : lsample -> column -> Q) (xs : list lsample) (r : results).
Hypothesis Hclean : clean_names d.
Hypothesis Hinh : inhabited_names d.
Hypothesis Hfaith : faithful d K val xs r.
Hypothesis Hxs : xs <> [].
Let F := length (d_features d).
Lemma F_pos : 1 <= F. Proof. destruct Hinh as [H _]. unfold F. destruct (d_features d); [congruence|simpl; lia]. Qed.
Lemma states_inhabited f : f < F -> 1 <= length (states d f).
Proof.
  intros Hf. destruct Hinh as [_ H]. destruct Hclean as (HL & _). unfold states.
  rewrite Forall_forall in H. specialize (H (nth f (d_states d) []) (nth_In _ _ ltac:(rewrite HL; exact Hf))).
  destruct (nth f (d_states d) []); [congruence|simpl; lia].
Qed.
Lemma lookup_feature {A} (g : nat -> A) f : f < F -> lookup (feature d f) (map (fun i => (feature d i, g i)) (seq 0 F)) = Some (g f).
Proof.
  intros Hf. unfold lookup.
  assert (H : forall m st, st <= f < st + m -> st + m <= F ->
    find (fun e : str * A => str_eqb (feature d f) (fst e)) (map (fun i => (feature d i, g i)) (seq st m)) = Some (feature d f, g f)).
  { induction m as [|m IH]; intros st Hst Hm; [lia|]. cbn [seq map find fst]. destruct (str_eqb (feature d f) (feature d st)) eqn:E.
    - apply str_eqb_eq in E. destruct Hclean as (_ & Hnd & _).
      assert (f = st) as <-; [|reflexivity]. eapply NoDup_nth with (d := []); [exact Hnd|exact Hf|apply Nat.lt_le_trans with (2 := Hm); lia|exact E].
    - apply IH; [|lia]. destruct (Nat.eq_dec f st) as [->|]; [rewrite str_eqb_refl in E; discriminate|lia]. }
  rewrite H by lia. reflexivity.
Qed.
Lemma features_tab : r_features r = map (fun i => (feature d i, states d i)) (seq 0 F).
Proof.
  rewrite (f_features Hfaith). destruct Hclean as (HL & _). unfold F, feature, states.
  apply nth_ext with ([], []) ([], []).
  { rewrite combine_length, map_length, seq_length, HL. apply Nat.min_id. }
  intros i Hi. rewrite combine_length, HL, Nat.min_id in Hi. rewrite combine_nth by (symmetry; exact HL).
  rewrite (nth_indep (map _ _) ([], []) ((fun i => (nth i (d_features d) [], nth i (d_states d) [])) 0)) by (rewrite map_length, seq_length; exact Hi).
  symmetry. etransitivity; [apply (map_nth (fun i => (nth i (d_features d) [], nth i (d_states d) [])) _ 0)|].
  rewrite seq_nth by exact Hi. reflexivity.
Qed.
Lemma states_found f : f < F -> states_for_feature r (feature d f) = Some (states d f).
Proof. intros Hf. unfold states_for_feature. rewrite features_tab. apply (lookup_feature (states d)). auto. Qed.
Lemma rows_ok mk n : rows_of val xs mk n <> [] /\ Forall (fun row => length row = n) (rows_of val xs mk n).
Proof.
  unfold rows_of. split; [destruct xs; [congruence|discriminate]|]. apply Forall_map, Forall_forall. intros x _. rewrite map_length, seq_length. reflexivity.
Qed.
Lemma component_ok k f : component_rows d val xs k f <> [] /\ Forall (fun row => length row = length (states d f)) (component_rows d val xs k f).
Proof. destruct k; apply rows_ok. Qed.

Lemma panels_ok add places (rowsf : nat -> list (list Q)) : F <= places ->
  (forall f, rowsf f <> [] /\ Forall (fun row => length row = length (states d f)) (rowsf f)) ->
  forall m st c, fit c -> st + m <= F ->
  exists c' ps, preference_panels c add r places (map (fun f => (feature d f, rowsf f)) (seq st m)) (st + 1) = Some (c', ps) /\ fit c' /\ length ps = m /\
    forall i, i < m -> exists p, nth_error ps i = Some (st + i + 1, feature d (st + i), p) /\
      shows (feature d (st + i)) (if add then states d (st + i) else []) (length (states d (st + i))) (rowsf (st + i)) p.
Proof.
  intros Hpl Hrows. induction m as [|m IH]; intros st c Hc Hm.
  - exists c, []. split; [reflexivity|]. split; [auto|]. split; [reflexivity|]. intros; lia.
  - cbn [seq map preference_panels]. destruct (Nat.ltb_spec places (st + 1)); [lia|]. rewrite states_found by lia. cbn [obind].
    destruct (Hrows st) as [Hr1 Hr2].
    destruct (preference_panel c add (feature d st) (states d st) (rowsf st) (length (states d st)) Hc Hr1 Hr2 (states_inhabited st ltac:(lia)) eq_refl)
      as (c1 & p1 & E1 & Hc1 & Hs1).
    rewrite E1. cbn [obind]. destruct (IH (S st) c1 Hc1 ltac:(lia)) as (c2 & ps & E2 & Hc2 & HL & Hps).
    replace (S (st + 1)) with (S st + 1) by lia. rewrite E2. cbn [obind]. do 2 eexists. split; [reflexivity|]. split; [auto|]. split; [simpl; lia|].
    intros [|i] Hi.
    + exists p1. rewrite Nat.add_0_r. split; [reflexivity|auto].
    + destruct (Hps i ltac:(lia)) as (p & Ep & Hp). exists p. replace (st + S i) with (S st + i) by lia. split; [exact Ep|exact Hp].
Qed.

Lemma name_inj k k' : In k (components d K) -> In k' (components d K) -> name_of_component d k = name_of_component d k' -> k = k'.
Proof.
  unfold components. rewrite !in_app_iff, !in_map_iff, !in_flat_map.
  intros [(a & <- & Ha)|(c & Hc & Hg)] [(a' & <- & Ha')|(c' & Hc' & Hg')] E;
    try (apply in_map_iff in Hg as (g & <- & Hg)); try (apply in_map_iff in Hg' as (g' & <- & Hg')); unfold name_of_component in E.
  - f_equal. apply a_inj in E. lia.
  - exfalso. apply (@a_plain (a + 1)). rewrite E. apply in_or_app. right. simpl. auto.
  - exfalso. apply (@a_plain (a' + 1)). rewrite <- E. apply in_or_app. right. simpl. auto.
  - apply in_seq in Hc, Hc', Hg, Hg'. apply cut_inj in E as [E1 E2]; try (apply conf_clean; auto).
    apply conf_inj in E1; auto; try lia. subst c'. apply group_inj in E2; try lia; [congruence|auto].
Qed.
Lemma components_nodup : NoDup (components d K).
Proof.
  unfold components. apply NoDup_app_disj.
  - apply NoDup_map_inj; [|apply seq_NoDup]. intros x y _ _ [= E]; auto.
  - generalize (length (d_confs d)). intros n. generalize 0 at 2. induction n as [|n IH]; intros st; [constructor|].
    cbn [seq flat_map]. apply NoDup_app_disj; [apply NoDup_map_inj; [|apply seq_NoDup]; intros x y _ _ [= E]; auto|apply IH|].
    intros k Hk Hk'. apply in_map_iff in Hk as (g & <- & _). apply in_flat_map in Hk' as (c & Hc & Hk'). apply in_map_iff in Hk' as (g' & [= -> _] & _).
    apply in_seq in Hc. lia.
  - intros k Hk Hk'. apply in_map_iff in Hk as (a & <- & _). apply in_flat_map in Hk' as (c & _ & Hk'). apply in_map_iff in Hk' as (g' & E & _). discriminate.
Qed.
Definition preferences_of (k : component) : str * list (str * list (list Q)) :=
  (name_of_component d k, map (fun f => (feature d f, component_rows d val xs k f)) (seq 0 F)).
Lemma set_new {A} k (v : A) l : ~ In k (map fst l) -> set_key k v l = l ++ [(k, v)].
Proof.
  intros H. unfold set_key. destruct (existsb (fun e => str_eqb k (fst e)) l) eqn:E; [|reflexivity].
  apply existsb_exists in E as (e & He & Hk). apply str_eqb_eq in Hk. exfalso. apply H. rewrite Hk. apply in_map. auto.
Qed.
Lemma set_news {A} (l acc : list (str * A)) : NoDup (map fst (acc ++ l)) -> fold_left (fun dd e => set_key (fst e) (snd e) dd) l acc = acc ++ l.
Proof.
  revert acc. induction l as [|[k v] l IH]; intros acc H; [rewrite app_nil_r; reflexivity|]. cbn [fold_left fst snd].
  rewrite set_new.
  - rewrite IH; [rewrite <- app_assoc; reflexivity|rewrite <- app_assoc; exact H].
  - rewrite map_app in H. cbn [map fst] in H. apply NoDup_remove in H as [_ H]. intros Hk. apply H. apply in_or_app. auto.
Qed.
Lemma preferences_tab : all_preferences r = map preferences_of (components d K).
Proof.
  unfold all_preferences. rewrite (f_areal Hfaith), (f_conf Hfaith).
  set (groups_of := flat_map (fun c => map (fun g => preferences_of (Group c g)) (seq 0 (length (groups d c)))) (seq 0 (length (d_confs d)))).
  set (acc := map (fun a => preferences_of (Cluster a)) (seq 0 K)).
  assert (E : map preferences_of (components d K) = acc ++ groups_of).
  { unfold components, acc, groups_of. rewrite map_app, map_map. f_equal.
    generalize (seq 0 (length (d_confs d))). intros l. induction l as [|c l IH]; [reflexivity|]. cbn [flat_map]. rewrite map_app, IH, map_map. reflexivity. }
  assert (Hnd : NoDup (map fst (acc ++ groups_of))).
  { rewrite <- E, map_map. unfold preferences_of. cbn [fst]. apply NoDup_map_inj; [|apply components_nodup]. intros k k' Hk Hk' En. apply name_inj; auto. }
  rewrite E, <- (set_news groups_of acc Hnd).
  assert (Hfold : forall l acc, fold_left (fun dd '(conf, effect) => fold_left (fun dd '(g, p) => set_key (conf ++ [underscore] ++ g) p dd) effect dd)
      (map (fun c => (confounder d c, map (fun g => (group d c g, by_feature d val xs (CConf c g))) (seq 0 (length (groups d c))))) l) acc =
    fold_left (fun dd e => set_key (fst e) (snd e) dd) (flat_map (fun c => map (fun g => preferences_of (Group c g)) (seq 0 (length (groups d c)))) l) acc).
  { induction l as [|c l IH]; intros a; [reflexivity|]. cbn [map fold_left flat_map]. rewrite fold_left_app, <- IH. f_equal.
    generalize (seq 0 (length (groups d c))). intros gs. revert a. induction gs as [|g gs IHg]; intros a; [reflexivity|]. cbn [map fold_left]. apply IHg. }
  rewrite Hfold. reflexivity.
Qed.

Definition panel_ok (add : bool) (k : component) (f : nat) (p : panel) : Prop :=
  shows (feature d f) (if add then states d f else []) (length (states d f)) (component_rows d val xs k f) p.
Definition file_of (file format : str) (k : component) : str := file ++ [underscore] ++ name_of_component d k ++ dot :: format.
Lemma figures_ok add n_col n_row off file format : (n_row - 1) * n_col < F <= n_row * n_col ->
  (forall p, In p off <-> F < p <= n_row * n_col) -> NoDup off ->
  forall ks c, fit c -> exists c' figs, preference_figures c add r n_col n_row off file format (map preferences_of ks) = Some (c', figs) /\ fit c' /\
    Forall2 (fun k fg => fg_file fg = file_of file format k /\ laid_out n_col (d_features d) (panel_ok add k) fg) ks figs.
Proof.
  intros Hgrid Hoff Hnd. induction ks as [|k ks IH]; intros c Hc.
  - exists c, []. split; [reflexivity|]. split; [auto|constructor].
  - cbn [map preference_figures]. unfold preferences_of at 1.
    destruct (panels_ok add (n_row * n_col) (component_rows d val xs k) ltac:(lia) (component_ok k) F 0 c Hc ltac:(lia)) as (c1 & ps & E1 & Hc1 & HL & Hps).
    cbn [Nat.add] in E1. rewrite E1. cbn [obind]. destruct (IH c1 Hc1) as (c2 & figs & E2 & Hc2 & HF). rewrite E2. cbn [obind].
    do 2 eexists. split; [reflexivity|]. split; [auto|]. constructor; [|exact HF]. split; [reflexivity|]. unfold laid_out. cbn [fg_cols fg_rows fg_off fg_panels].
    fold F. split; [reflexivity|]. split; [exact Hgrid|]. split; [exact Hoff|]. split; [exact Hnd|]. split; [exact HL|].
    intros i x Hi. assert (Hlt : i < F) by (apply nth_error_Some; rewrite Hi; discriminate). destruct (Hps i Hlt) as (p & Ep & Hp). exists p.
    assert (Hx : feature d i = x) by (apply nth_error_nth; auto). cbn [Nat.add] in Ep, Hp. rewrite <- Hx. split; [exact Ep|exact Hp].
Qed.
End Results.

(** ** Every cluster and every group has its own figure, with one panel for each feature *)
Theorem C93_preferences : forall d K val xs r c add which n_col file format,
  clean_names d -> inhabited_names d -> faithful d K val xs r -> xs <> [] -> fit c -> 1 <= n_col ->
  exists c' figs shown, plot_preferences c add which n_col file format r = Some (c', figs) /\ fit c' /\
    NoDup shown /\ (forall k, In k shown <-> In k (components d K) /\ (which = [] \/ In (name_of_component d k) which)) /\
    Forall2 (fun k fg => fg_file fg = file ++ [underscore] ++ name_of_component d k ++ dot :: format /\
      laid_out n_col (d_features d)
        (fun f p => shows (feature d f) (if add then states d f else []) (length (states d f)) (component_rows d val xs k f) p) fg) shown figs /\
    NoDup (map fg_file figs).
Proof.
  intros d K val xs r c add which n_col file format H1 H2 H3 Hxs Hc Hcol.
  destruct (grid_spec (length (d_features d)) n_col (F_pos d H2) Hcol) as (n_row & off & Eg & Hg1 & _ & Hg2 & Hg3).
  set (wanted := fun k => match which with [] => true | _ => mem (name_of_component d k) which end).
  set (shown := filter wanted (components d K)).
  destruct (figures_ok d K val xs r H1 H2 H3 Hxs add n_col n_row off file format Hg1 Hg2 Hg3 shown c Hc) as (c' & figs & E & Hc' & HF).
  exists c', figs, shown.
  assert (Hsel : selected which (all_preferences r) = map (preferences_of d val xs) shown).
  { rewrite (preferences_tab d K val xs r H1 H3). unfold selected, shown, wanted. destruct which as [|w ws].
    - f_equal. generalize (components d K). intros l0. induction l0 as [|k l IH]; [reflexivity|]. cbn [filter]. f_equal. exact IH.
    - generalize (components d K). intros l0. induction l0 as [|k l IH]; [reflexivity|]. cbn [map filter]. unfold preferences_of at 1. cbn [fst].
      destruct (mem (name_of_component d k) (w :: ws)); cbn [map]; rewrite IH; reflexivity. }
  split.
  { unfold plot_preferences. rewrite (f_features H3). rewrite combine_length. destruct H1 as (HLs & _). rewrite HLs, Nat.min_id, Eg. cbn [obind].
    rewrite Hsel. exact E. }
  split; [exact Hc'|]. split; [apply NoDup_filter, components_nodup|]. split.
  { intros k. unfold shown. rewrite filter_In. unfold wanted. destruct which as [|w ws]; [tauto|]. rewrite mem_In. split; intros [Ha Hb]; split; auto.
    destruct Hb as [Hb|Hb]; [discriminate|auto]. }
  split; [exact HF|].
  assert (Em : map fg_file figs = map (file_of d file format) shown).
  { clear - HF. induction HF as [|k fg ks figs [E _] _ IH]; [reflexivity|]. cbn [map]. rewrite E, IH. reflexivity. }
  rewrite Em. apply NoDup_map_inj; [|apply NoDup_filter, components_nodup].
  intros k k' Hk Hk' En. unfold file_of in En. apply app_inv_head in En. apply app_inv_head in En. apply app_inv_tail in En.
  apply filter_In in Hk, Hk'. apply (name_inj d K H1); tauto.
Qed.
Print Assumptions C93_preferences.

(** * Weights *)
(** Results that are exactly what C62 says. *)
Definition exact_results (d : names) (K : nat) (val : lsample -> column -> Q) (xs : list lsample) : results :=
  {| r_clusters := map (fun i => map (fun x => nth i (ls_clusters x) []) xs) (seq 0 K);
     r_confounders := d_confs d;
     r_cluster_names := map (fun i => s_ "a" ++ str_nat (i + 1)) (seq 0 K);
     r_features := combine (d_features d) (d_states d);
     r_sample_id := map (fun x => Qtrunc (val x CSample)) xs;
     r_weights := map (fun f => (feature d f, rows_of val xs (CWeight f) (1 + length (d_confs d)))) (seq 0 (length (d_features d)));
     r_areal_effect := map (fun a => (s_ "a" ++ str_nat (a + 1), by_feature d val xs (CAreal a))) (seq 0 K);
     r_confounding_effects := map (fun c => (confounder d c, map (fun g => (group d c g, by_feature d val xs (CConf c g))) (seq 0 (length (groups d c))))) (seq 0 (length (d_confs d)));
     r_posterior := map (fun x => val x CPosterior) xs; r_likelihood := map (fun x => val x CLikelihood) xs; r_prior := map (fun x => val x CPrior) xs;
     r_posterior_single := single K val "post_a" xs CPostA; r_likelihood_single := single K val "lh_a" xs CLhA; r_prior_single := single K val "prior_a" xs CPriorA |}.
Lemma exact_faithful d K val xs : faithful d K val xs (exact_results d K val xs).
Proof. constructor; reflexivity. Qed.

Lemma lookup_index d {A} (g : nat -> A) x : clean_names d -> In x (d_features d) ->
  exists f, f < length (d_features d) /\ feature d f = x /\ lookup x (map (fun i => (feature d i, g i)) (seq 0 (length (d_features d)))) = Some (g f).
Proof.
  intros Hc Hx. apply In_nth with (d := []) in Hx as (f & Hf & <-). exists f. split; [auto|]. split; [reflexivity|]. apply (lookup_feature d Hc); auto.
Qed.
Lemma weight_panels_ok c names n (l : list (str * list (list Q))) : fit c -> 3 <= n ->
  Forall (fun e => snd e <> [] /\ Forall (fun row => length row = n) (snd e)) l ->
  forall pos, exists ps, weight_panels c names l pos = Some ps /\ length ps = length l /\
    forall i e, nth_error l i = Some e -> exists p, nth_error ps i = Some (pos + i, fst e, p) /\ shows_weights (fst e) n (snd e) p.
Proof.
  intros Hc Hn. induction 1 as [|[f w] l [H1 H2] _ IH]; intros pos.
  - exists []. split; [reflexivity|]. split; [reflexivity|]. intros [|i] e Hi; discriminate.
  - cbn [weight_panels]. cbn [snd] in H1, H2. destruct (weight_panel c f names w n Hc Hn H1 H2) as (p & -> & Hp). cbn [obind].
    destruct (IH (S pos)) as (ps & -> & HL & Hps). cbn [obind]. eexists. split; [reflexivity|]. split; [simpl; lia|].
    intros [|i] e Hi; simpl in Hi.
    + injection Hi as <-. exists p. rewrite Nat.add_0_r. split; [reflexivity|exact Hp].
    + destruct (Hps i e Hi) as (q & Eq & Hq). exists q. replace (pos + S i) with (S pos + i) by lia. auto.
Qed.
(** What [plot_weights] draws: the given features, or all of them. *)
Definition shown_features (d : names) (features : list str) : list str := match features with [] => d_features d | _ => features end.
Theorem C93_weights_partial : forall d K val xs r c features names n_col file format,
  clean_names d -> inhabited_names d -> faithful d K val xs r -> xs <> [] -> fit c -> 1 <= n_col ->
  2 <= length (d_confs d) -> NoDup features -> (forall f, In f features -> In f (d_features d)) ->
  exists fg, plot_weights c features names n_col file format (r_weights r) = Some fg /\ fg_file fg = file ++ dot :: format /\
    laid_out n_col (shown_features d features)
      (fun i p => exists f, f < length (d_features d) /\ nth_error (shown_features d features) i = Some (feature d f) /\
         shows_weights (feature d f) (1 + length (d_confs d)) (rows_of val xs (CWeight f) (1 + length (d_confs d))) p) fg.
Proof.
  intros d K val xs r c features names n_col file format H1 H2 H3 Hxs Hc Hcol Hconf Hnd Hin.
  set (F := length (d_features d)). set (n := 1 + length (d_confs d)) in *.
  set (entry := fun f => (feature d f, rows_of val xs (CWeight f) n)).
  assert (Hidx : exists idx, map (feature d) idx = shown_features d features /\ Forall (fun f => f < F) idx /\
    match features with
    | [] => Some (r_weights r)
    | _ => option_map (@results_dict _) (all_opt (map (fun f => option_map (pair f) (lookup f (r_weights r))) features))
    end = Some (map entry idx)).
  { rewrite (f_weights H3). unfold shown_features. destruct features as [|x0 xs0].
    - exists (seq 0 F). split.
      { apply nth_ext with [] []; [rewrite map_length, seq_length; reflexivity|]. intros i Hi. rewrite map_length, seq_length in Hi.
        rewrite (nth_indep _ [] (feature d 0)) by (rewrite map_length, seq_length; auto). rewrite map_nth, seq_nth by auto. reflexivity. }
      split; [apply Forall_forall; intros f Hf; apply in_seq in Hf; lia|reflexivity].
    - set (fs := x0 :: xs0) in *. clearbody fs. clear x0 xs0.
      assert (H : exists idx, map (feature d) idx = fs /\ Forall (fun f => f < F) idx /\
        all_opt (map (fun f => option_map (pair f) (lookup f (map (fun f => (feature d f, rows_of val xs (CWeight f) (1 + length (d_confs d)))) (seq 0 (length (d_features d)))))) fs)
        = Some (map entry idx)).
      { clear Hnd. induction fs as [|x fs IH]; [exists []; repeat split; constructor|].
        destruct (IH (fun f Hf => Hin f (or_intror Hf))) as (idx & E1 & E2 & E3).
        destruct (lookup_index d (fun f => rows_of val xs (CWeight f) (1 + length (d_confs d))) x H1 (Hin x (or_introl eq_refl))) as (f & Hf & Ex & El).
        exists (f :: idx). split; [simpl; rewrite Ex, E1; reflexivity|]. split; [constructor; auto|].
        cbn [map all_opt]. rewrite El. cbn [option_map]. rewrite E3. unfold entry at 2. rewrite <- Ex. reflexivity. }
      destruct H as (idx & E1 & E2 & E3). exists idx. split; [exact E1|]. split; [exact E2|]. rewrite E3. cbn [option_map]. f_equal.
      apply results_nodup. rewrite map_map. change (NoDup (map (feature d) idx)). rewrite E1. exact Hnd. }
  destruct Hidx as (idx & E1 & E2 & E3). unfold plot_weights. rewrite E3. cbn [obind]. rewrite map_length.
  assert (HLi : length idx = length (shown_features d features)) by (rewrite <- E1, map_length; reflexivity).
  assert (Hpos : 1 <= length idx).
  { rewrite HLi. unfold shown_features. destruct features; [apply (F_pos d H2)|simpl; lia]. }
  destruct (grid_spec (length idx) n_col Hpos Hcol) as (n_row & off & Eg & Hg1 & _ & Hg2 & Hg3). rewrite Eg. cbn [obind].
  destruct (weight_panels_ok c names n (map entry idx) Hc ltac:(unfold n; lia)) with (pos := 1) as (ps & Ep & HL & Hps).
  { apply Forall_map, Forall_forall. intros f _. eapply rows_ok; eassumption. }
  rewrite Ep. cbn [obind]. eexists. split; [reflexivity|]. split; [reflexivity|]. unfold laid_out. cbn [fg_cols fg_rows fg_off fg_panels].
  rewrite <- HLi. split; [reflexivity|]. split; [exact Hg1|]. split; [exact Hg2|]. split; [exact Hg3|]. split; [rewrite HL; apply map_length|].
  intros i x Hi. assert (Hi' := Hi). rewrite <- E1 in Hi. destruct (nth_error idx i) as [f|] eqn:Ef.
  2:{ apply nth_error_None in Ef. assert (H : nth_error (map (feature d) idx) i = None) by (apply nth_error_None; rewrite map_length; auto). rewrite H in Hi. discriminate. }
  rewrite (map_nth_error _ _ _ Ef) in Hi. injection Hi as <-.
  destruct (Hps i (entry f) (map_nth_error _ _ _ Ef)) as (p & Enp & Hp). exists p. rewrite Nat.add_comm. split; [exact Enp|].
  exists f. split; [rewrite Forall_forall in E2; apply E2; eapply nth_error_In; eauto|]. split; [exact Hi'|exact Hp].
Qed.
Print Assumptions C93_weights_partial.

(** Two samples of the analysis of C62's example. *)
Definition demo_value (x : lsample) (col : column) : Q := match col with CWeight _ 0 => 1 # 2 | CWeight _ _ => 1 # 4 | CAreal _ _ 0 => 1 # 3 | CAreal _ _ _ => 2 # 3 | CConf _ _ _ _ => 1 # 2 | _ => 0 end.
Definition demo_results : results := exact_results demo_names 2 demo_value [demo_s1; demo_s1].
Example C93_demo : clean_names demo_names /\ inhabited_names demo_names /\ faithful demo_names 2 demo_value [demo_s1; demo_s1] demo_results /\ fit new_cache /\
  map (name_of_component demo_names) (components demo_names 2) = map s_ ["a1"; "a2"; "family_IE"; "family_Bantu"; "universal_ALL"]%string.
Proof.
  split; [apply demo_clean|]. split; [apply demo_reserved|]. split; [apply exact_faithful|]. split; [|reflexivity].
  intros n Hn. exists 1%R. apply new_regular. lia.
Qed.
(** With fewer than two confounders there are at most two components: [fill_outside] raises a ValueError and there is no figure. *)
Definition one_confounder : names := {| d_features := d_features demo_names; d_states := d_states demo_names; d_confs := [(s_ "universal", [s_ "ALL"])] |}.
Theorem C93_weights_refuted :
  (forall d K val xs r c features names n_col file format, clean_names d -> inhabited_names d -> faithful d K val xs r -> xs <> [] -> fit c ->
     (forall n, length (c n) = n) -> length (d_confs d) <= 1 -> (forall f, In f features -> In f (d_features d)) ->
     plot_weights c features names n_col file format (r_weights r) = None) /\
  (exists d K val xs, clean_names d /\ inhabited_names d /\ xs <> [] /\ length (d_confs d) = 1 /\
     forall names n_col file format, plot_weights new_cache [] names n_col file format (r_weights (exact_results d K val xs)) = None).
Proof.
  assert (Hgen : forall d K val xs r c features names n_col file format, clean_names d -> inhabited_names d -> faithful d K val xs r -> xs <> [] -> fit c ->
     (forall n, length (c n) = n) -> length (d_confs d) <= 1 -> (forall f, In f features -> In f (d_features d)) ->
     plot_weights c features names n_col file format (r_weights r) = None).
  { intros d K val xs r c features names n_col file format H1 H2 H3 Hxs Hc Hlen Hconf Hin. unfold plot_weights.
    assert (Hno : forall l pos, l <> [] -> Forall (fun e => snd e <> [] /\ Forall (fun row => length row = 1 + length (d_confs d)) (snd e)) l ->
      weight_panels c names l pos = None).
    { intros l pos Hl HF. destruct l as [|[f w] l]; [congruence|]. inversion HF as [|? ? [Ha Hb] _]; subst. cbn [weight_panels]. cbn [snd] in Ha, Hb.
      unfold plot_weight. rewrite (rows_columns _ _ Ha Hb). unfold fill_outside. rewrite Hlen. destruct (Nat.leb_spec (1 + length (d_confs d)) 2); [reflexivity|lia]. }
    assert (HW : Forall (fun e => snd e <> [] /\ Forall (fun row => length row = 1 + length (d_confs d)) (snd e)) (r_weights r)).
    { rewrite (f_weights H3). apply Forall_map, Forall_forall. intros f _. eapply rows_ok; eassumption. }
    match goal with |- obind ?e _ = _ => destruct e as [l|] eqn:El end; [|reflexivity]. cbn [obind].
    destruct (grid (length l) n_col) as [[n_row off]|] eqn:Eg; [|reflexivity]. cbn [obind].
    rewrite Hno; [reflexivity| |].
    { intros ->. unfold grid in Eg. rewrite Bool.orb_comm in Eg. discriminate. }
    destruct features as [|x0 fs]; [injection El as <-; exact HW|].
    destruct (all_opt _) as [l0|] eqn:E0; [|discriminate]. cbn [option_map] in El. injection El as <-.
    apply Forall_forall. intros [k v] Hkv. apply (proj2 (results_spec l0)) in Hkv.
    assert (Hmem : In (k, v) l0) by (destruct Hkv as (l1 & l2 & -> & _); apply in_or_app; right; left; reflexivity).
    clear Hkv. cbn [snd].
    assert (Hl : exists x, In (x, v) (r_weights r)).
    { clear - E0 Hmem. revert l0 E0 Hmem. generalize (x0 :: fs). intros l. induction l as [|x l IH]; intros l0 E0 Hmem.
      - injection E0 as <-. destruct Hmem.
      - cbn [map all_opt] in E0. destruct (lookup x (r_weights r)) as [w|] eqn:Ew; [|discriminate]. cbn [option_map] in E0.
        destruct (all_opt _) as [l1|] eqn:E1; [|discriminate]. injection E0 as <-. destruct Hmem as [[= -> ->]|Hmem]; [|eapply IH; eauto].
        unfold lookup in Ew. destruct (find _ _) as [[y w]|] eqn:Ef; [|discriminate]. injection Ew as ->. apply find_some in Ef as [Ef _]. eauto. }
    destruct Hl as (x & Hx). rewrite Forall_forall in HW. apply (HW _ Hx). }
  split; [exact Hgen|].
  exists one_confounder, 1, demo_value, [demo_s1; demo_s1].
  assert (Hcl : clean_names one_confounder).
  { destruct demo_clean as (Ha & Hb & Hc & Hd & _). unfold clean_names. conj; auto.
    - repeat constructor; simpl; tauto.
    - repeat constructor; try (intros Hi; simpl in Hi; intuition discriminate); simpl; try tauto; try discriminate. }
  split; [exact Hcl|]. split; [apply demo_reserved|]. split; [discriminate|]. split; [reflexivity|].
  intros names n_col file format. apply (Hgen one_confounder 1 demo_value [demo_s1; demo_s1]); auto.
  - apply demo_reserved.
  - apply exact_faithful.
  - discriminate.
  - intros n Hn. exists 1%R. apply new_regular. lia.
  - intros n. unfold new_cache, corner_points. rewrite map_length, seq_length. reflexivity.
  - intros f [].
Qed.
Print Assumptions C93_weights_refuted.

(** The names beside the corners come from the configuration alone: with the default names, the weight of the family is shown as
    "U" and that of the universal preference as "I". *)
Theorem C93_labels_refuted : exists d K val xs r fg sp xy, clean_names d /\ inhabited_names d /\ faithful d K val xs r /\ xs <> [] /\
  plot_weights new_cache [] (Some default_weight_names) 1 (s_ "weights") (s_ "pdf") (r_weights r) = Some fg /\
  nth_error (fg_panels fg) 0 = Some (1, feature d 0, Simplex sp) /\
  component_name d 1 = s_ "family" /\ component_name d 2 = s_ "universal" /\
  nth_error (sp_labels sp) 1 = Some (xy, s_ "U") /\
  forall x, mix [0; 1; 0]%R (sp_polygon sp) = x -> xy = (fst x * 1.15 - 0.05, snd x * 1.15 - 0.05)%R.
Proof.
  destruct (C93_demo) as (H1 & H2 & H3 & H4 & _).
  destruct (C93_weights_partial demo_names 2 demo_value [demo_s1; demo_s1] demo_results new_cache [] (Some default_weight_names) 1 (s_ "weights") (s_ "pdf")
    H1 H2 H3 ltac:(discriminate) H4 (le_n 1) (le_n 2) (NoDup_nil _) ltac:(intros f [])) as (fg & E & _ & _ & _ & _ & _ & HL & Hp).
  destruct (Hp 0 (feature demo_names 0) eq_refl) as (p & Ep & _).
  exists demo_names, 2, demo_value, [demo_s1; demo_s1], demo_results, fg.
  unfold plot_weights in E. cbn [obind] in E.
  destruct (fill_regular 1 3 (new_cache 3) (le_n 3) (new_regular 3 ltac:(lia))) as (lines & Hf).
  set (w := rows_of demo_value [demo_s1; demo_s1] (CWeight 0) 3) in *.
  assert (Hw : plot_weight new_cache (feature demo_names 0) (Some default_weight_names) (as_real w) = Some p).
  { change (r_weights demo_results) with ((feature demo_names 0, w) :: tl (r_weights demo_results)) in E.
    destruct (grid _ 1) as [[n_row off]|]; [|discriminate]. cbn [obind] in E. cbn [weight_panels] in E.
    destruct (plot_weight new_cache (feature demo_names 0) (Some default_weight_names) (as_real w)) as [q|]; [|discriminate]. cbn [obind] in E.
    destruct (weight_panels _ _ _ _) as [ps|]; [|discriminate]. cbn [obind] in E. injection E as <-. cbn [fg_panels nth_error] in Ep. injection Ep as ->. reflexivity. }
  unfold plot_weight in Hw. change (n_columns (as_real w)) with 3 in Hw. rewrite Hf in Hw. cbn [option_map] in Hw. injection Hw as <-.
  eexists. exists (fst (corner 3 1) * 1.15 - 0.05, snd (corner 3 1) * 1.15 - 0.05)%R.
  split; [exact H1|]. split; [exact H2|]. split; [exact H3|]. split; [discriminate|]. split; [exact E|]. split; [exact Ep|].
  split; [reflexivity|]. split; [reflexivity|]. cbn [sp_labels sp_polygon]. split; [reflexivity|].
  intros x <-. pose proof (C93_corners 1 3 (new_cache 3) 1 (new_regular 3 ltac:(lia)) ltac:(lia)) as (Hm & _).
  change (unit_at 3 1) with [0; 1; 0]%R in Hm. rewrite Hm. reflexivity.
Qed.
Print Assumptions C93_labels_refuted.

(** * The plot of one feature *)
(** A place of the grid, the title of the panel, and whose preference it shows. *)
Definition place := (nat * nat * str * component)%type.
Section Feature.
Variables (d : names) (K : nat) (val : lsample -> column -> Q) (xs : list lsample) (r : results).
Hypothesis Hclean : clean_names d.
Hypothesis Hinh : inhabited_names d.
Hypothesis Hfaith : faithful d K val xs r.
Hypothesis Hxs : xs <> [].
Variables (f : nat) (add : bool).
Hypothesis Hf : f < length (d_features d).
Definition in_place (e : place) (q : nat * nat * panel) : Prop :=
  let '(row, col, title, k) := e in
  fst q = (row, col) /\ shows title (if add then states d f else []) (length (states d f)) (component_rows d val xs k f) (snd q).
Definition entry_of (gname : nat -> str) (comp : nat -> component) (g : nat) : str * list (str * list (list Q)) :=
  (gname g, map (fun f => (feature d f, component_rows d val xs (comp g) f)) (seq 0 (length (d_features d)))).
Lemma row_ok gname comp name mx row : forall m st c, fit c -> st + m <= mx ->
  exists c' ps, feature_row c add r (feature d f) name (2 + mx) row (st + 2) (map (entry_of gname comp) (seq st m)) = Some (c', ps) /\ fit c' /\
    Forall2 in_place (map (fun g => (row, g + 2, group_title name (gname g), comp g)) (seq st m)) ps.
Proof.
  induction m as [|m IH]; intros st c Hc Hm; [exists c, []; repeat split; auto; constructor|].
  cbn [seq map feature_row]. unfold entry_of at 1. destruct (Nat.leb_spec (2 + mx) (st + 2)); [lia|].
  rewrite (lookup_feature d Hclean (fun f => component_rows d val xs (comp st) f) f Hf). cbn [obind].
  rewrite (states_found d K val xs r Hclean Hfaith f Hf). cbn [obind].
  assert (Ha : component_rows d val xs (comp st) f <> [] /\ Forall (fun row => length row = length (states d f)) (component_rows d val xs (comp st) f)) by (eapply component_ok; eassumption). destruct Ha as [Ha Hb].
  destruct (preference_panel c add (group_title name (gname st)) (states d f) _ (length (states d f)) Hc Ha Hb (states_inhabited d Hclean Hinh f Hf) eq_refl)
    as (c1 & p & -> & Hc1 & Hp). cbn [obind].
  destruct (IH (S st) c1 Hc1 ltac:(lia)) as (c2 & ps & E & Hc2 & HF). replace (S (st + 2)) with (S st + 2) by lia. rewrite E. cbn [obind].
  do 2 eexists. split; [reflexivity|]. split; [auto|]. constructor; [|exact HF]. split; [reflexivity|exact Hp].
Qed.
Lemma row_fail gname comp name mx row : forall m st c, fit c -> st <= mx < st + m ->
  feature_row c add r (feature d f) name (2 + mx) row (st + 2) (map (entry_of gname comp) (seq st m)) = None.
Proof.
  induction m as [|m IH]; intros st c Hc Hm; [lia|].
  cbn [seq map feature_row]. unfold entry_of at 1. destruct (Nat.leb_spec (2 + mx) (st + 2)); [reflexivity|].
  rewrite (lookup_feature d Hclean (fun f => component_rows d val xs (comp st) f) f Hf). cbn [obind].
  rewrite (states_found d K val xs r Hclean Hfaith f Hf). cbn [obind].
  assert (Ha : component_rows d val xs (comp st) f <> [] /\ Forall (fun row => length row = length (states d f)) (component_rows d val xs (comp st) f)) by (eapply component_ok; eassumption). destruct Ha as [Ha Hb].
  destruct (preference_panel c add (group_title name (gname st)) (states d f) _ (length (states d f)) Hc Ha Hb (states_inhabited d Hclean Hinh f Hf) eq_refl)
    as (c1 & p & -> & Hc1 & Hp). cbn [obind]. replace (S (st + 2)) with (S st + 2) by lia. rewrite IH; auto. lia.
Qed.
(** Rows: the name of the component, the names of its groups, what they stand for, how many there are. *)
Definition row_spec := (str * (nat -> str) * (nat -> component) * nat)%type.
Definition row_entry (e : row_spec) := let '(name, gname, comp, m) := e in (name, map (entry_of gname comp) (seq 0 m)).
Definition row_places (row : nat) (e : row_spec) : list place :=
  let '(name, gname, comp, m) := e in map (fun g => (row, g + 2, group_title name (gname g), comp g)) (seq 0 m).
Fixpoint places (row : nat) (l : list row_spec) : list place := match l with [] => [] | e :: l => row_places row e ++ places (S row) l end.
Lemma rows_ok' mx : forall l row c, fit c -> Forall (fun e => snd e <= mx) l ->
  exists c' ps, feature_rows c add r (feature d f) (2 + mx) row (map row_entry l) = Some (c', ps) /\ fit c' /\ Forall2 in_place (places row l) ps.
Proof.
  induction l as [|[[[name gname] comp] m] l IH]; intros row c Hc Hl; [exists c, []; repeat split; auto; constructor|].
  inversion Hl as [|? ? Hm Hl']; subst. cbn [snd] in Hm. cbn [map feature_rows row_entry].
  destruct (row_ok gname comp name mx row m 0 c Hc Hm) as (c1 & ps & E1 & Hc1 & HF1). change (0 + 2) with 2 in E1. rewrite E1. cbn [obind].
  destruct (IH (S row) c1 Hc1 Hl') as (c2 & qs & E2 & Hc2 & HF2). rewrite E2. cbn [obind].
  do 2 eexists. split; [reflexivity|]. split; [auto|]. cbn [places row_places]. apply Forall2_app; auto.
Qed.
Lemma rows_fail mx e l : forall l0 row c, fit c -> Forall (fun e => snd e <= mx) l0 -> mx < snd e ->
  feature_rows c add r (feature d f) (2 + mx) row (map row_entry (l0 ++ e :: l)) = None.
Proof.
  induction l0 as [|[[[name gname] comp] m] l0 IH]; intros row c Hc Hl He.
  - destruct e as [[[name gname] comp] m]. cbn [snd] in He. cbn [app map feature_rows row_entry].
    pose proof (row_fail gname comp name mx row m 0 c Hc ltac:(lia)) as E. change (0 + 2) with 2 in E. rewrite E. reflexivity.
  - inversion Hl as [|? ? Hm Hl']; subst. cbn [snd] in Hm. cbn [app map feature_rows row_entry].
    destruct (row_ok gname comp name mx row m 0 c Hc Hm) as (c1 & ps & E1 & Hc1 & HF1). change (0 + 2) with 2 in E1. rewrite E1. cbn [obind].
    rewrite IH; auto.
Qed.
Definition confounder_row (c : nat) : row_spec := (confounder d c, group d c, Group c, length (groups d c)).
Definition cluster_row : row_spec := (s_ "cluster", fun a => s_ "a" ++ str_nat (a + 1), Cluster, K).
Lemma preferences_rows : ~ In (s_ "cluster") (map fst (d_confs d)) ->
  feature_preferences r = map row_entry (map confounder_row (seq 0 (length (d_confs d))) ++ [cluster_row]).
Proof.
  intros Hno. unfold feature_preferences. rewrite set_new.
  - rewrite (f_conf Hfaith), (f_areal Hfaith), map_app, map_map. reflexivity.
  - rewrite (f_conf Hfaith), map_map. change (~ In (s_ "cluster") (map (confounder d) (seq 0 (length (d_confs d))))).
    rewrite <- (@confs_tab d). exact Hno.
Qed.
Lemma groups_max c : c < length (d_confs d) -> length (groups d c) <= list_max (map (fun cg => length (snd cg)) (d_confs d)).
Proof.
  intros Hc. unfold groups. assert (H := proj1 (list_max_le (map (fun cg => length (snd cg)) (d_confs d)) _) (le_n _)).
  rewrite Forall_map, Forall_forall in H. apply H. apply nth_In. auto.
Qed.
End Feature.

(** Where the panels should be: a row for each confounder with its groups, then a row with the clusters; the panel of a group of all
    objects has no title. *)
Definition expected_places (d : names) (K : nat) : list place :=
  flat_map (fun c => map (fun g => (c, g + 2, if str_eqb (group d c g) (s_ "<ALL>") then [] else group d c g, Group c g)) (seq 0 (length (groups d c))))
    (seq 0 (length (d_confs d))) ++
  map (fun a => (length (d_confs d), a + 2, s_ "Area " ++ str_nat (a + 1), Cluster a)) (seq 0 K).
Definition max_groups (d : names) : nat := list_max (map (fun cg => length (snd cg)) (d_confs d)).
Lemma places_expected d K : ~ In (s_ "cluster") (map fst (d_confs d)) ->
  places 0 (map (confounder_row d) (seq 0 (length (d_confs d))) ++ [cluster_row K]) = expected_places d K.
Proof.
  intros Hno.
  assert (Happ : forall l1 l2 row, places row (l1 ++ l2) = places row l1 ++ places (row + length l1) l2).
  { induction l1 as [|e l1 IH]; intros l2 row; [rewrite Nat.add_0_r; reflexivity|]. cbn [app places length]. rewrite IH, app_assoc. do 2 f_equal. lia. }
  rewrite Happ, map_length, seq_length. cbn [places Nat.add]. rewrite app_nil_r. unfold expected_places. f_equal.
  assert (Hc : forall c, c < length (d_confs d) -> confounder d c <> s_ "cluster").
  { intros c Hc E. apply Hno. rewrite <- E, (@confs_tab d). apply in_map. apply in_seq. lia. }
  assert (H : forall m st, st + m <= length (d_confs d) -> places st (map (confounder_row d) (seq st m)) =
    flat_map (fun c => map (fun g => (c, g + 2, if str_eqb (group d c g) (s_ "<ALL>") then [] else group d c g, Group c g)) (seq 0 (length (groups d c)))) (seq st m)).
  { induction m as [|m IH]; intros st Hst; [reflexivity|]. cbn [seq map places flat_map]. rewrite IH by lia. f_equal. unfold confounder_row, row_places.
    apply map_ext. intros g. unfold group_title. destruct (str_eqb (confounder d st) (s_ "cluster")) eqn:E; [|reflexivity].
    apply str_eqb_eq in E. exfalso. apply (Hc st); auto. lia. }
  apply H. lia.
Qed.
Theorem C93_feature_partial : forall d K val xs r c add names f,
  clean_names d -> inhabited_names d -> faithful d K val xs r -> xs <> [] -> fit c -> f < length (d_features d) ->
  2 <= length (d_confs d) -> ~ In (s_ "cluster") (map fst (d_confs d)) -> K <= max_groups d ->
  exists c' p ps, plot_weights_and_prefs c add names (feature d f) r = Some (c', ((1 + length (d_confs d)) / 2, 0, p) :: ps) /\ fit c' /\
    shows_weights [] (1 + length (d_confs d)) (rows_of val xs (CWeight f) (1 + length (d_confs d))) p /\
    Forall2 (fun '(row, col, title, k) q => fst q = (row, col) /\
      shows title (if add then states d f else []) (length (states d f)) (component_rows d val xs k f) (snd q)) (expected_places d K) ps /\
    (forall row col p, In (row, col, p) ps -> row <= length (d_confs d) /\ 2 <= col < 2 + max_groups d) /\ NoDup (map fst ps).
Proof.
  intros d K val xs r c add names f H1 H2 H3 Hxs Hc Hf Hconf Hno HK. unfold plot_weights_and_prefs. rewrite (f_confounders H3).
  fold (max_groups d). destruct (d_confs d) as [|c0 cs] eqn:Ed; [simpl in Hconf; lia|]. rewrite <- Ed in *. clear c0 cs Ed.
  rewrite (f_weights H3), (lookup_feature d H1 (fun f => rows_of val xs (CWeight f) (1 + length (d_confs d))) f Hf). cbn [obind].
  assert (Hr : rows_of val xs (CWeight f) (1 + length (d_confs d)) <> [] /\
    Forall (fun row => length row = 1 + length (d_confs d)) (rows_of val xs (CWeight f) (1 + length (d_confs d)))) by (eapply rows_ok; eassumption).
  destruct Hr as [Hr1 Hr2].
  destruct (weight_panel c [] names _ (1 + length (d_confs d)) Hc ltac:(lia) Hr1 Hr2) as (p & -> & Hp). cbn [obind].
  rewrite (preferences_rows d K val xs r H3 Hno).
  destruct (rows_ok' d K val xs r H1 H2 H3 Hxs f add Hf (max_groups d) (map (confounder_row d) (seq 0 (length (d_confs d))) ++ [cluster_row K]) 0 c Hc) as (c' & ps & E & Hc' & HF).
  { apply Forall_app. split; [|repeat constructor; auto]. apply Forall_map, Forall_forall. intros i Hi. apply in_seq in Hi. apply groups_max. lia. }
  unfold max_groups in E. rewrite E. cbn [obind]. exists c', p, ps. rewrite (places_expected d K Hno) in HF. split; [reflexivity|]. split; [auto|]. split; [exact Hp|]. split.
  { clear - HF. induction HF as [|[[[row col] title] k] q l ps Hq _ IH]; constructor; [exact Hq|exact IH]. }
  assert (Em : map fst ps = map (fun e : place => fst (fst e)) (expected_places d K)).
  { clear - HF. induction HF as [|[[[row col] title] k] q l ps [Hq _] _ IH]; [reflexivity|]. cbn [map fst]. rewrite Hq, IH. reflexivity. }
  assert (Hplaces : forall row col, In (row, col) (map (fun e : place => fst (fst e)) (expected_places d K)) -> row <= length (d_confs d) /\ 2 <= col < 2 + max_groups d).
  { intros row col Hin. apply in_map_iff in Hin as ([[[row' col'] title] k] & [= -> ->] & Hin). unfold expected_places in Hin. apply in_app_iff in Hin as [Hin|Hin].
    - apply in_flat_map in Hin as (i & Hi & Hin). apply in_map_iff in Hin as (g & [= <- <- _ _] & Hg). apply in_seq in Hi, Hg.
      pose proof (groups_max d i ltac:(lia)). unfold max_groups. lia.
    - apply in_map_iff in Hin as (a & [= <- <- _ _] & Ha). apply in_seq in Ha. lia. }
  split.
  { intros row col q Hin. apply Hplaces. rewrite <- Em. apply in_map_iff. exists (row, col, q). auto. }
  rewrite Em. unfold expected_places. rewrite map_app, map_map. cbn [fst]. apply NoDup_app_disj.
  - assert (Hrows : forall n st, NoDup (map (fun e : place => fst (fst e)) (flat_map (fun c => map (fun g =>
      (c, g + 2, if str_eqb (group d c g) (s_ "<ALL>") then [] else group d c g, Group c g)) (seq 0 (length (groups d c)))) (seq st n)))); [|apply Hrows].
    induction n as [|n IH]; intros st; [constructor|].
    cbn [seq flat_map]. rewrite map_app, map_map. cbn [fst]. apply NoDup_app_disj; [|apply IH|].
    + apply NoDup_map_inj; [|apply seq_NoDup]. intros x y _ _ [= Exy]. lia.
    + intros q Hq Hq'. apply in_map_iff in Hq as (g & <- & _). apply in_map_iff in Hq' as (e & Ee & Hq'). apply in_flat_map in Hq' as (i & Hi & Hq').
      apply in_map_iff in Hq' as (g' & <- & _). cbn [fst] in Ee. injection Ee as Ee _. apply in_seq in Hi. lia.
  - apply NoDup_map_inj; [|apply seq_NoDup]. intros x y _ _ [= Exy]. lia.
  - intros q Hq Hq'. apply in_map_iff in Hq' as (a & <- & _). apply in_map_iff in Hq as (e & Ee & Hq). apply in_flat_map in Hq as (i & Hi & Hq).
    apply in_map_iff in Hq as (g & <- & _). cbn [fst] in Ee. injection Ee as Ee _. apply in_seq in Hi. lia.
Qed.
Print Assumptions C93_feature_partial.
Example C93_feature_demo : 2 <= length (d_confs demo_names) /\ ~ In (s_ "cluster") (map fst (d_confs demo_names)) /\ 2 <= max_groups demo_names /\
  map (fun e : place => fst e) (expected_places demo_names 2) =
  [(0, 2, s_ "IE"); (0, 3, s_ "Bantu"); (1, 2, s_ "ALL"); (2, 2, s_ "Area 1"); (2, 3, s_ "Area 2")].
Proof. split; [simpl; lia|]. split; [simpl; intuition discriminate|]. split; [vm_compute; lia|reflexivity]. Qed.

(** The grid has as many columns as the largest confounder has groups: with more clusters than that there is no plot (IndexError), nor
    with fewer than two confounders (ValueError).  The preferences of a confounder called "cluster" are not shown. *)
Definition named_cluster : names :=
  {| d_features := d_features demo_names; d_states := d_states demo_names; d_confs := [(s_ "cluster", [s_ "x"; s_ "y"]); (s_ "universal", [s_ "ALL"])] |}.
Theorem C93_feature_refuted :
  (forall d K val xs r c add names f, clean_names d -> inhabited_names d -> faithful d K val xs r -> xs <> [] -> fit c -> f < length (d_features d) ->
     ~ In (s_ "cluster") (map fst (d_confs d)) -> max_groups d < K -> plot_weights_and_prefs c add names (feature d f) r = None) /\
  (exists d K val xs c, clean_names d /\ inhabited_names d /\ xs <> [] /\ fit c /\ 2 <= length (d_confs d) /\ ~ In (s_ "cluster") (map fst (d_confs d)) /\
     forall add names f, f < length (d_features d) -> plot_weights_and_prefs c add names (feature d f) (exact_results d K val xs) = None) /\
  (forall d K val xs r c add names f, clean_names d -> faithful d K val xs r -> xs <> [] -> f < length (d_features d) ->
     (forall n, length (c n) = n) -> length (d_confs d) < 2 -> plot_weights_and_prefs c add names (feature d f) r = None) /\
  (exists d K val xs c p ps, clean_names d /\ inhabited_names d /\ xs <> [] /\ K <= max_groups d /\
     plot_weights_and_prefs new_cache false None (feature d 0) (exact_results d K val xs) = Some (c, p :: ps) /\
     length ps < length (expected_places d K)).
Proof.
  assert (Hgen : forall d K val xs r c add names f, clean_names d -> inhabited_names d -> faithful d K val xs r -> xs <> [] -> fit c -> f < length (d_features d) ->
     ~ In (s_ "cluster") (map fst (d_confs d)) -> max_groups d < K -> plot_weights_and_prefs c add names (feature d f) r = None).
  { intros d K val xs r c add names f H1 H2 H3 Hxs Hc Hf Hno HK. unfold plot_weights_and_prefs. rewrite (f_confounders H3).
    fold (max_groups d). destruct (d_confs d) as [|c0 cs] eqn:Ed; [reflexivity|]. rewrite <- Ed in *. clear c0 cs Ed.
    destruct (lookup _ _) as [w|]; [|reflexivity]. cbn [obind]. destruct (plot_weight _ _ _ _); [|reflexivity]. cbn [obind].
    rewrite (preferences_rows d K val xs r H3 Hno).
    fold (max_groups d). rewrite (rows_fail d K val xs r H1 H2 H3 Hxs f add Hf (max_groups d) (cluster_row K) []); auto.
    apply Forall_map, Forall_forall. intros i Hi. apply in_seq in Hi. apply groups_max. lia. }
  assert (Hfew : forall d K val xs r c add names f, clean_names d -> faithful d K val xs r -> xs <> [] -> f < length (d_features d) ->
     (forall n, length (c n) = n) -> length (d_confs d) < 2 -> plot_weights_and_prefs c add names (feature d f) r = None).
  { intros d K val xs r c add names f H1 H3 Hxs Hf Hlen Hconf. unfold plot_weights_and_prefs. rewrite (f_confounders H3).
    destruct (d_confs d) as [|c0 cs] eqn:Ed; [reflexivity|]. rewrite <- Ed in *. clear c0 cs Ed.
    rewrite (f_weights H3), (lookup_feature d H1 (fun f => rows_of val xs (CWeight f) (1 + length (d_confs d))) f Hf). cbn [obind].
    unfold plot_weight. rewrite (rows_columns _ (1 + length (d_confs d))).
    - unfold fill_outside. rewrite Hlen. destruct (Nat.leb_spec (1 + length (d_confs d)) 2); [reflexivity|lia].
    - unfold rows_of. destruct xs; [congruence|discriminate].
    - unfold rows_of. apply Forall_map, Forall_forall. intros x _. rewrite map_length, seq_length. reflexivity. }
  destruct C93_demo as (D1 & D2 & _ & D4 & _).
  split; [exact Hgen|]. split; [|split; [exact Hfew|]].
  - exists demo_names, 3, demo_value, [demo_s1; demo_s1], new_cache. split; [exact D1|]. split; [exact D2|]. split; [discriminate|]. split; [exact D4|].
    split; [simpl; lia|]. assert (Hno : ~ In (s_ "cluster") (map fst (d_confs demo_names))) by (simpl; intuition discriminate). split; [exact Hno|].
    intros add names f Hf. apply (Hgen demo_names 3 demo_value [demo_s1; demo_s1]); first [exact Hf|apply exact_faithful|discriminate|(vm_compute; lia)|assumption].
  - assert (Hcl : clean_names named_cluster).
    { destruct demo_clean as (Ha & Hb & Hc & Hd & _). unfold clean_names. conj; auto.
      - repeat constructor; simpl; intuition discriminate.
      - repeat constructor; try (intros Hi; simpl in Hi; intuition discriminate); simpl; try tauto; try discriminate. }
    assert (Hin : inhabited_names named_cluster) by apply demo_reserved.
    set (r := exact_results named_cluster 2 demo_value [demo_s1; demo_s1]).
    assert (H3 : faithful named_cluster 2 demo_value [demo_s1; demo_s1] r) by apply exact_faithful.
    assert (HF0 : 0 < length (d_features named_cluster)) by (simpl; lia).
    destruct (rows_ok' named_cluster 2 demo_value [demo_s1; demo_s1] r Hcl Hin H3 ltac:(discriminate) 0 false HF0 2 [cluster_row 2; confounder_row named_cluster 1] 0 new_cache D4)
      as (c' & ps & E & _ & HF); [repeat constructor|].
    destruct (weight_panel new_cache [] None (rows_of demo_value [demo_s1; demo_s1] (CWeight 0) 3) 3 D4 (le_n 3) ltac:(discriminate) ltac:(repeat constructor)) as (p & Ep & _).
    exists named_cluster, 2, demo_value, [demo_s1; demo_s1], c', (1, 0, p), ps. split; [exact Hcl|]. split; [exact Hin|]. split; [discriminate|]. split; [vm_compute; lia|].
    assert (HL : length ps = 3) by (symmetry; clear - HF; change 3 with (length (places 0 [cluster_row 2; confounder_row named_cluster 1])); induction HF; simpl; congruence). split; [|rewrite HL; vm_compute; lia].
    unfold plot_weights_and_prefs. fold r. change (r_confounders r) with (d_confs named_cluster). cbn [d_confs named_cluster].
    change (lookup (feature named_cluster 0) (r_weights r)) with (Some (rows_of demo_value [demo_s1; demo_s1] (CWeight 0) 3)). cbn [obind]. rewrite Ep. cbn [obind].
    change (feature_preferences r) with (map (row_entry named_cluster demo_value [demo_s1; demo_s1]) [cluster_row 2; confounder_row named_cluster 1]).
    change (list_max _) with 2. rewrite E. reflexivity.
Qed.
Print Assumptions C93_feature_refuted.
