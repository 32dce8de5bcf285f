(** Property C96: the plot of the DIC. *)
From Coq Require Import Lqa.
From Verif Require Import M_plotrun S_plot2 S_plotrun L_text L_loggers L_plot L_plot2 P_post P_loggers.
Close Scope R_scope.
Close Scope Q_scope.
Open Scope nat_scope.

Lemma str_eqb_iff a b : str_eqb a b = true <-> a = b.
Proof. unfold str_eqb. destruct (list_eq_dec ascii_dec a b); split; intros; auto; congruence. Qed.
Lemma mem_iff m l : mem m l = true <-> In m l.
Proof. unfold mem. rewrite existsb_exists. split; [intros (x & H & E); apply str_eqb_iff in E; congruence|]. intros H. exists m. split; auto. apply str_eqb_iff. auto. Qed.
Lemma all_opt_spec A (l : list (option A)) r : all_opt l = Some r <-> l = map Some r.
Proof.
  revert r. induction l as [|x l IH]; intros r; simpl; [split; [intros [= <-]; auto|destruct r; [auto|discriminate]]|].
  destruct x as [a|]; [|split; [discriminate|destruct r; discriminate]]. destruct (all_opt l) as [r'|] eqn:E.
  - split; [intros [= <-]; simpl; f_equal; apply IH; auto|]. destruct r as [|b r]; [discriminate|]. intros [= -> H]. apply IH in H. congruence.
  - split; [discriminate|]. destruct r as [|b r]; [discriminate|]. intros [= -> H]. apply IH in H. discriminate.
Qed.
(** Names without repetition get the places 0, 1, ... *)
Lemma distinct_nodup x : forall seen, NoDup (seen ++ x) -> name_places seen x = seen ++ x.
Proof.
  induction x as [|m x IH]; intros seen H; simpl; [rewrite app_nil_r; auto|]. destruct (mem m seen) eqn:E.
  - apply mem_iff in E. apply NoDup_remove_2 in H. destruct H. apply in_or_app; auto.
  - rewrite IH; rewrite <- app_assoc; auto.
Qed.
Lemma index_nodup l : NoDup l -> forall k m, nth_error l k = Some m -> index_of m l = k.
Proof.
  induction 1 as [|y l Hy H IH]; intros k m E; [destruct k; discriminate|]. simpl. destruct k as [|k]; simpl in E.
  - injection E as ->. assert (E : str_eqb m m = true) by (apply str_eqb_iff; auto). rewrite E. auto.
  - destruct (str_eqb m y) eqn:E'; [|f_equal; auto]. apply str_eqb_iff in E'. subst. destruct Hy. eapply nth_error_In; eauto.
Qed.
Lemma lookup_nth A (d : list (str * A)) : NoDup (map fst d) -> forall k m v, nth_error d k = Some (m, v) -> lookup m d = Some v.
Proof.
  unfold lookup. induction d as [|(m' & v') d IH]; intros H k m v E; [destruct k; discriminate|]. simpl in *. inversion H; subst. destruct k as [|k]; simpl in E.
  - injection E as -> ->. assert (E : str_eqb m m = true) by (apply str_eqb_iff; auto). rewrite E. auto.
  - destruct (str_eqb m m') eqn:E'; [|eapply IH; eauto]. apply str_eqb_iff in E'. subst. match goal with H : ~ In _ _ |- _ => destruct H end.
    change m' with (fst (m', v)). apply in_map. eapply nth_error_In; eauto.
Qed.
Lemma min_q_spec l : forall x, In (min_q x l) (x :: l) /\ forall y, In y (x :: l) -> (min_q x l <= y)%Q.
Proof.
  induction l as [|y r IH]; intros x; simpl.
  - split; [left; auto|]. intros z [->|[]]. apply Qle_refl.
  - destruct (IH y) as (Hin & Hle). destruct (Qle_bool (min_q y r) x) eqn:E.
    + apply Qle_bool_iff in E. split; [right; exact Hin|]. intros z [->|Hz]; auto.
    + assert (E' : (x <= min_q y r)%Q). { destruct (Qlt_le_dec (min_q y r) x) as [H|H]; auto. apply Qlt_le_weak, Qle_bool_iff in H. congruence. }
      split; [left; auto|]. intros z [->|Hz]; [apply Qle_refl|]. eapply Qle_trans; [exact E'|apply Hle, Hz].
Qed.
Lemma ceil_nat x : (0 <= x)%Q -> exists j, Qceiling x = Z.of_nat j /\ is_ceiling x j.
Proof.
  intros H. pose proof (Qle_ceiling x) as H1. pose proof (Qceiling_lt x) as H2. assert (0 <= Qceiling x)%Z.
  { rewrite Zle_Qle. eapply Qle_trans; eauto. }
  exists (Z.to_nat (Qceiling x)). rewrite Z2Nat.id by auto. split; auto. unfold is_ceiling. rewrite Z2Nat.id by auto. split; auto.
  unfold Z.sub in H2. rewrite inject_Z_plus in H2. change (inject_Z (-(1))) with (-(1))%Q in H2. lra.
Qed.
(** What [compute_dic] needs and returns. *)
Lemma dic_value l b : (0 <= b)%Q -> exists j, is_ceiling (inject_Z (Z.of_nat (length l)) * b) j /\
  match compute_dic l b with Some d => j < length l /\ criterion (skipn j l) d | None => length l <= j end.
Proof.
  intros Hb. destruct (@ceil_nat (inject_Z (Z.of_nat (length l)) * b)%Q) as (j & E & C). { apply Qmult_le_0_compat; auto. change 0%Q with (inject_Z 0). rewrite <- Zle_Qle. lia. }
  exists j. split; auto. unfold compute_dic. rewrite E, slice_nat. destruct (skipn j l) as [|x r] eqn:El.
  - apply (f_equal (@length _)) in El. rewrite skipn_length in El. simpl in El. lia.
  - split. { apply (f_equal (@length _)) in El. rewrite skipn_length in El. simpl in El. lia. }
    destruct (max_q_spec r x) as [H1 H2]. exists (max_q x r). conj; auto. 
    change (fun x0 : Q => (-(2) * x0)%Q) with deviance. change (average (map deviance (x :: r))) with (mean_q (map deviance (x :: r))). rewrite mean_deviance. ring.
Qed.

(** The selection of the models. *)
Lemma py_index_ok A (l : list A) i : (1 <= i <= Z.of_nat (length l))%Z -> py_index l (i - 1) = nth_error l (Z.to_nat (i - 1)).
Proof. intros H. unfold py_index. destruct (Z.ltb_spec (i - 1) 0); auto. lia. Qed.
Lemma selection (ns : list str) which : numbers_ok (length ns) which ->
  match which with [] => Some ns | _ => all_opt (map (fun i => py_index ns (i - 1)) which) end = Some (map (fun i => nth i ns []) (shown (length ns) which)).
Proof.
  intros H. destruct which as [|i0 w].
  - f_equal. unfold shown. apply nth_error_ext. intros k. rewrite nth_error_map. destruct (Nat.lt_ge_cases k (length ns)).
    + rewrite (nth_error_nth' (seq 0 (length ns)) 0) by (rewrite seq_length; auto). rewrite seq_nth by auto. simpl. apply nth_error_nth'. auto.
    + rewrite (proj2 (nth_error_None _ _)) by auto. rewrite (proj2 (nth_error_None _ _)) by (rewrite seq_length; auto). auto.
  - unfold shown. apply all_opt_spec. rewrite !map_map. apply map_ext_in. intros i Hi. unfold numbers_ok in H. rewrite Forall_forall in H. specialize (H _ Hi).
    rewrite py_index_ok by auto. apply nth_error_nth'. lia.
Qed.
Lemma shown_lt n which : numbers_ok n which -> forall i, In i (shown n which) -> i < n.
Proof.
  intros H i Hi. destruct which as [|i0 w]; unfold shown in Hi; [apply in_seq in Hi; lia|]. apply in_map_iff in Hi as (z & <- & Hz).
  unfold numbers_ok in H. rewrite Forall_forall in H. specialize (H _ Hz). lia.
Qed.
Lemma shown_nodup n which : numbers_ok n which -> NoDup which -> NoDup (shown n which).
Proof.
  intros H N. destruct which as [|i0 w]; [apply seq_NoDup|]. unfold shown. unfold numbers_ok in H. revert H N. generalize (i0 :: w). clear.
  induction l as [|i l IH]; intros H N; simpl; constructor; inversion N; inversion H; subst; auto.
  intros Hin. apply in_map_iff in Hin as (z & E & Hz). rewrite Forall_forall in *. match goal with H : forall x, In x l -> _ |- _ => specialize (H _ Hz) end. assert (z = i) by lia. subst. auto.
Qed.
Lemma names_nodup (ns : list str) l : NoDup ns -> NoDup l -> (forall i, In i l -> i < length ns) -> NoDup (map (fun i => nth i ns []) l).
Proof.
  intros Hn. induction 1 as [|i l Hi H IH]; intros B; simpl; constructor; auto; [|apply IH; intros; apply B; simpl; auto].
  intros Hin. apply in_map_iff in Hin as (j & E & Hj). assert (j = i); [|congruence]. eapply NoDup_nth with (d := []); eauto; apply B; simpl; auto.
Qed.
Lemma combine_nth_error A B (l : list A) (l' : list B) : forall k a b, nth_error l k = Some a -> nth_error l' k = Some b -> nth_error (combine l l') k = Some (a, b).
Proof. revert l'. induction l as [|x l IH]; intros [|y l'] [|k] a b H H'; try discriminate; simpl in *; [congruence|auto]. Qed.

(** C96, points: with models under different names, and numbers of existing models without repetition, every selected model has
    its own place, in the order of the selection; the point there has the value computed from the model's own samples without its
    first part; the label there is the model's name, or the label given for the place; all points are inside the limits, and the
    ticks go from the least to the greatest value. *)
Theorem C96_points : forall which b labels file fmt (models : list (str * results)) fig,
  NoDup (map fst models) -> numbers_ok (length models) which -> NoDup which -> (0 <= b)%Q ->
  plot_dic which b labels file fmt models = Some fig ->
  df_file fig = file ++ s_ "." ++ fmt /\ length (df_points fig) = length (shown (length models) which) /\
  length (df_labels fig) = length (shown (length models) which) /\
  (forall k i, nth_error (shown (length models) which) k = Some i -> exists name r d j,
    nth_error models i = Some (name, r) /\ nth_error (df_points fig) k = Some (k, d) /\
    is_ceiling (inject_Z (Z.of_nat (length (r_likelihood r))) * b) j /\ criterion (skipn j (r_likelihood r)) d /\
    nth_error (df_labels fig) k = Some (match labels with [] => name | _ => nth k labels [] end) /\
    (fst (df_x fig) < inject_Z (Z.of_nat k) < snd (df_x fig))%Q /\ (fst (df_y fig) <= d <= snd (df_y fig))%Q) /\
  exists lo hi, In lo (map snd (df_points fig)) /\ In hi (map snd (df_points fig)) /\
    (forall y, In y (map snd (df_points fig)) -> lo <= y <= hi)%Q /\
    length (df_ticks fig) = 6 /\ (nth 0 (df_ticks fig) 0 == lo)%Q /\ (nth 5 (df_ticks fig) 0 == hi)%Q.
Proof.
  intros which b labels file fmt models fig Hn Hw Nw Hb H. unfold plot_dic in H.
  rewrite <- (map_length fst models) in Hw. rewrite (selection _ _ Hw) in H. cbn [obind] in H. rewrite map_length in H, Hw.
  set (sel := shown (length models) which) in *. set (x := map (fun i => nth i (map fst models) []) sel) in *.
  assert (Bs : forall i, In i sel -> i < length models) by (apply shown_lt; auto).
  assert (Nx : NoDup x). { apply names_nodup; auto. apply shown_nodup; auto. intros i Hi. rewrite map_length. auto. }
  destruct (all_opt _) as [y|] eqn:Ey; [|discriminate]. cbn [obind] in H. destruct y as [|y0 ys]; [discriminate|]. injection H as <-. set (y := y0 :: ys) in *.
  apply all_opt_spec in Ey. assert (Ly : length y = length sel). { apply (f_equal (@length _)) in Ey. unfold x in Ey. rewrite !map_length in Ey. auto. }
  cbn [df_file df_points df_labels df_x df_y df_ticks]. rewrite (@distinct_nodup x []) by exact Nx. cbn [app].
  assert (Lx : length x = length sel) by (unfold x; apply map_length).
  destruct (min_q_spec ys y0) as [M1 M2]. destruct (max_q_spec ys y0) as [M3 M4]. fold y in M1, M2, M3, M4.
  assert (Es : map snd (combine (map (fun m : str => index_of m x) x) y) = y).
  { assert (G : length (map (fun m : str => index_of m x) x) = length y) by (rewrite map_length; lia). revert G. generalize (map (fun m : str => index_of m x) x). clear.
    generalize y. clear. intros y l. revert y. induction l as [|a l IH]; intros [|z y] G; try discriminate; auto. simpl. f_equal. apply IH. simpl in G. lia. }
  conj.
  - reflexivity.
  - rewrite combine_length, map_length. lia.
  - unfold tick_labels. rewrite map_length, seq_length. exact Lx.
  - intros k i Hk. assert (Hi : i < length models) by (apply Bs; eapply nth_error_In; eauto). assert (Lk : k < length sel) by (apply nth_error_Some; congruence).
    destruct (nth_error models i) as [(name & r)|] eqn:Em; [|apply nth_error_None in Em; lia].
    assert (Ex : nth_error x k = Some name). { unfold x. rewrite nth_error_map, Hk. simpl. f_equal. apply nth_error_nth. rewrite nth_error_map, Em. reflexivity. }
    destruct (nth_error y k) as [d|] eqn:Ed; [|apply nth_error_None in Ed; lia].
    assert (Ed' : compute_dic (r_likelihood r) b = Some d).
    { apply (f_equal (fun l => nth_error l k)) in Ey. rewrite !nth_error_map, Ex, Ed in Ey. cbn [option_map] in Ey. rewrite (lookup_nth _ models Hn i name r Em) in Ey. cbn [obind] in Ey. congruence. }
    destruct (dic_value (r_likelihood r) b Hb) as (j & Hj & V). rewrite Ed' in V. destruct V as [_ V].
    exists name, r, d, j. split; [reflexivity|]. split; [|split; [exact Hj|split; [exact V|split; [|split]]]].
    + apply combine_nth_error; auto. rewrite nth_error_map, Ex. simpl. f_equal. apply index_nodup; auto.
    + unfold tick_labels. rewrite nth_error_map, (nth_error_nth' (seq 0 (length x)) 0) by (rewrite seq_length; lia). rewrite seq_nth by lia. cbn [option_map plus]. f_equal.
      destruct labels; auto. apply nth_error_nth. auto.
    + cbn [fst snd]. rewrite Lx. assert (inject_Z (Z.of_nat k) + 1 <= inject_Z (Z.of_nat (length sel)))%Q. { change 1%Q with (inject_Z 1). rewrite <- inject_Z_plus, <- Zle_Qle. lia. }
      assert (0 <= inject_Z (Z.of_nat k))%Q. { change 0%Q with (inject_Z 0). rewrite <- Zle_Qle. lia. } split; lra.
    + cbn [fst snd]. assert (In d y) by (eapply nth_error_In; eauto). specialize (M2 _ H). specialize (M4 _ H). split; lra.
  - exists (min_q y0 ys), (max_q y0 ys). rewrite Es. conj; auto.
    + cbn. unfold Qdiv. change (inject_Z 0) with 0%Q. ring.
    + cbn. unfold Qdiv. change (inject_Z 5) with 5%Q. field.
Qed.
Print Assumptions C96_points.

(** C96, drawn: the plot is drawn if and only if there are models and every selected model has a sample left. *)
Theorem C96_drawn : forall which b labels file fmt (models : list (str * results)),
  NoDup (map fst models) -> numbers_ok (length models) which -> (0 <= b)%Q ->
  (exists fig, plot_dic which b labels file fmt models = Some fig) <->
  models <> [] /\ forall i name r, In i (shown (length models) which) -> nth_error models i = Some (name, r) ->
    (b * inject_Z (Z.of_nat (length (r_likelihood r))) <= inject_Z (Z.of_nat (length (r_likelihood r))) - 1)%Q.
Proof.
  intros which b labels file fmt models Hn Hw Hb. unfold plot_dic. rewrite <- (map_length fst models) in Hw. rewrite (selection _ _ Hw). cbn [obind]. rewrite map_length in *.
  set (sel := shown (length models) which) in *. assert (Bs : forall i, In i sel -> i < length models) by (apply shown_lt; auto).
  assert (V : forall l, compute_dic l b <> None <-> (b * inject_Z (Z.of_nat (length l)) <= inject_Z (Z.of_nat (length l)) - 1)%Q).
  { intros l. destruct (dic_value l b Hb) as (j & (J1 & J2) & V). destruct (compute_dic l b) as [d|].
    - split; [intros _|intros _; discriminate]. destruct V as [V _]. assert (inject_Z (Z.of_nat j) + 1 <= inject_Z (Z.of_nat (length l)))%Q. { change 1%Q with (inject_Z 1). rewrite <- inject_Z_plus, <- Zle_Qle. lia. } lra.
    - split; [congruence|]. intros H. assert (inject_Z (Z.of_nat (length l)) <= inject_Z (Z.of_nat j))%Q by (rewrite <- Zle_Qle; lia). lra. }
  assert (Se : sel = [] <-> models = []). { unfold sel, shown. destruct which as [|i w]; [split; intros E; [destruct models; [auto|discriminate]|rewrite E; auto]|]. split; [discriminate|].
    intros ->. unfold numbers_ok in Hw. inversion Hw; subst. simpl in *. lia. }
  match goal with |- context [all_opt ?l] => destruct (all_opt l) as [y|] eqn:Ey end; cbn [obind].
  - apply all_opt_spec in Ey. split.
    + intros (fig & H). split; [intros E; apply Se in E; rewrite E in Ey; simpl in Ey; destruct y; [discriminate H|discriminate Ey]|].
      intros i name r Hi Em. apply V. apply In_nth_error in Hi as (k & Hk). apply (f_equal (fun l => nth_error l k)) in Ey. rewrite !nth_error_map, Hk in Ey. cbn [option_map] in Ey.
      rewrite (nth_error_nth (map fst models) i [] (x := name)) in Ey by (rewrite nth_error_map, Em; auto). rewrite (lookup_nth _ models Hn i name r Em) in Ey. cbn [obind] in Ey. destruct (nth_error y k); cbn [option_map] in Ey; congruence.
    + intros (E & _). destruct y as [|y0 ys]; [|eauto]. destruct E. apply Se. rewrite map_map in Ey. destruct sel; [auto|discriminate].
  - split; [intros (fig & H); discriminate|]. intros (_ & H). exfalso.
    assert (exists y, map (fun m => obind (lookup m models) (fun r => compute_dic (r_likelihood r) b)) (map (fun i => nth i (map fst models) []) sel) = map Some y) as (y & E).
    { clear Ey Se. induction sel as [|i l IH]; [exists []; auto|]. destruct IH as (y & E); [intros; apply Bs; simpl; auto|intros; eapply H; simpl; eauto|].
      assert (Hi : i < length models) by (apply Bs; simpl; auto). destruct (nth_error models i) as [(name & r)|] eqn:Em; [|apply nth_error_None in Em; lia].
      cbn [map]. rewrite E. rewrite (nth_error_nth (map fst models) i [] (x := name)) by (rewrite nth_error_map, Em; auto). rewrite (lookup_nth _ models Hn i name r Em). cbn [obind].
      specialize (H i name r (or_introl eq_refl) Em). apply V in H. destruct (compute_dic (r_likelihood r) b) as [d|]; [|congruence]. exists (d :: y). auto. }
    apply all_opt_spec in E. congruence.
Qed.
Print Assumptions C96_drawn.

Lemma skipn_twice : forall A i j (l : list A), skipn (i + j) l = skipn j (skipn i l).
Proof. induction i; intros j [|a l]; simpl; auto. destruct j; reflexivity. Qed.
(** C96, samples: of [n] logged samples, the integer part of the share [b1] (setting of the map) is dropped when the files are
    read, and of what remains the share [b2] (setting of this plot), rounded up. *)
Theorem C96_samples : forall clusters t b1 b2 r l n d, clusters <> [] -> Forall (fun c : bmat => length c = n) clusters -> length (t_rows t) = n ->
  (0 <= b1 <= 1)%Q -> (0 <= b2)%Q -> make_results clusters t b1 = Some r -> get_column t (s_ "likelihood") = Some l ->
  compute_dic (r_likelihood r) b2 = Some d ->
  exists i j, is_floor (b1 * inject_Z (Z.of_nat n)) i /\ is_ceiling (inject_Z (Z.of_nat (n - i)) * b2) j /\ criterion (skipn (i + j) l) d.
Proof.
  intros clusters t b1 b2 r l n d Hc HF Hl [B0 B1] Hb Hm Hcol Hd.
  destruct (@C34_burn_in (list Q) clusters (t_rows t) b1 n Hc HF Hl B0 B1) as (i & Hi & Hlo & Hhi & Hsnd & _).
  assert (E : r_likelihood r = skipn i l /\ length l = n).
  { unfold make_results in Hm. destruct (drop_burnin clusters (t_rows t) b1) as [cl rows]. cbn [snd] in Hsnd. subst rows. unfold get_column in Hcol.
    destruct (position (s_ "likelihood") (t_cols t)) as [k|] eqn:Ek; [|discriminate]. cbn [option_map] in Hcol. injection Hcol as <-.
    repeat match type of Hm with context [obind ?x _] => destruct x eqn:?; cbn [obind] in Hm; [|discriminate] end.
    injection Hm as <-. cbn [r_likelihood].
    match goal with H : get_column _ (s_ "likelihood") = Some _ |- _ => unfold get_column in H; cbn [t_cols t_rows] in H; rewrite Ek in H; cbn [option_map] in H; injection H as <- end.
    rewrite map_length. split; auto. symmetry. apply skipn_map. }
  destruct E as [E El]. destruct (dic_value (r_likelihood r) b2 Hb) as (j & Hj & V). rewrite Hd in V. destruct V as [_ V]. rewrite E in Hj, V. rewrite skipn_length, El in Hj.
  exists i, j. conj; auto.
  - split; auto. rewrite inject_Z_plus in Hhi. exact Hhi.
  - rewrite skipn_twice. exact V.
Qed.
Print Assumptions C96_samples.

(** Cases: the results of a run with ten samples of one cluster of one object, one feature and one confounder. *)
Definition demo_cols : list str := map s_ ["Sample"; "posterior"; "likelihood"; "prior"; "w_areal_F"; "w_fam_F"; "areal_a1_F_x"; "areal_a1_F_y"; "fam_g_F_x"; "fam_g_F_y"; "post_a1"; "lh_a1"; "prior_a1"]%string.
Definition demo_row (i : nat) (lh : Z) : list Q := [inject_Z (Z.of_nat i); inject_Z lh; inject_Z lh; 0; 1 # 2; 1 # 2; 1 # 3; 2 # 3; 1 # 4; 3 # 4; inject_Z lh; inject_Z lh; 0]%Q.
Definition demo_table (lhs : list Z) : M_results.table := {| t_cols := demo_cols; t_rows := mapi demo_row lhs |}.
Definition demo_clusters (n : nat) : list bmat := [repeat [true] n].
Definition demo_results (b : Q) (lhs : list Z) : option results := make_results (demo_clusters (length lhs)) (demo_table lhs) b.
Definition ten : list Z := [-90; -80; -7; -6; -5; -4; -3; -2; -4; -3]%Z.
Definition results_or (b : Q) (lhs : list Z) : results :=
  match demo_results b lhs with Some r => r | None => Build_results [] [] [] [] [] [] [] [] [] [] [] [] [] [] end.
Example C96_points_case : exists fig, demo_results (1 # 5) ten = Some (results_or (1 # 5) ten) /\
  plot_dic [2; 1]%Z (1 # 5) [] (s_ "dic") (s_ "pdf") [(s_ "K1_0", results_or (1 # 5) ten); (s_ "K2_0", results_or 0 ten)] = Some fig /\
  df_labels fig = [s_ "K2_0"; s_ "K1_0"] /\ map fst (df_points fig) = [0; 1] /\ length (r_likelihood (results_or (1 # 5) ten)) = 8.
Proof. eexists. conj; vm_compute; reflexivity. Qed.
Example C96_drawn_case : exists fig, plot_dic [] (1 # 2) [] (s_ "dic") (s_ "pdf") [(s_ "K1_0", results_or 0 ten)] = Some fig /\
  plot_dic [] 1 [] (s_ "dic") (s_ "pdf") [(s_ "K1_0", results_or 0 ten)] = None /\ plot_dic [] 0 [] (s_ "dic") (s_ "pdf") [] = None.
Proof. eexists. conj; vm_compute; reflexivity. Qed.
Example C96_samples_case : demo_clusters 10 <> [] /\ Forall (fun c : bmat => length c = 10) (demo_clusters 10) /\ length (t_rows (demo_table ten)) = 10 /\
  make_results (demo_clusters 10) (demo_table ten) (1 # 5) = Some (results_or (1 # 5) ten) /\
  get_column (demo_table ten) (s_ "likelihood") = Some (map inject_Z ten) /\ compute_dic (r_likelihood (results_or (1 # 5) ten)) (1 # 5) <> None.
Proof. conj; try discriminate; try reflexivity. repeat constructor. Qed.

(** Not so: the value of the samples without the share set for this plot; the share of the map is dropped as well.  *)
Theorem C96_burn_in_refuted : exists clusters t b r l d, clusters <> [] /\ Forall (fun c : bmat => length c = length l) clusters /\
  make_results clusters t b = Some r /\ get_column t (s_ "likelihood") = Some l /\ compute_dic (r_likelihood r) b = Some d /\
  forall j, is_ceiling (inject_Z (Z.of_nat (length l)) * b) j -> ~ criterion (skipn j l) d.
Proof.
  exists (demo_clusters 10), (demo_table ten), (1 # 5)%Q, (results_or (1 # 5) ten), (map inject_Z ten). eexists. conj; try discriminate; try reflexivity; [repeat constructor|].
  intros j [J1 J2]. cbn [length map ten] in J1, J2. change (inject_Z (Z.of_nat 10) * (1 # 5))%Q with (10 # 5)%Q in *.
  assert (Hj : j = 2). { assert (A : (2 <= inject_Z (Z.of_nat j))%Q) by lra. assert (B : (inject_Z (Z.of_nat j) < 3)%Q) by lra. change 2%Q with (inject_Z 2) in A. change 3%Q with (inject_Z 3) in B. rewrite <- Zle_Qle in A. rewrite <- Zlt_Qlt in B. lia. }
  subst j. intros (m & Hin & Hle & E). assert (Em : (m == -(2))%Q).
  { apply Qle_antisym; [|apply (Hle (-(2))%Q); vm_compute; tauto]. vm_compute in Hin. repeat (destruct Hin as [<-|Hin]; [vm_compute; discriminate|]). destruct Hin. }
  rewrite Em in E. revert E. vm_compute. discriminate.
Qed.
Print Assumptions C96_burn_in_refuted.
(** Not so: a number that no model has is refused; 0 shows the last model. *)
Theorem C96_zero_refuted : exists models fig name r, NoDup (map fst models) /\ plot_dic [0]%Z 0 [] (s_ "dic") (s_ "pdf") models = Some fig /\
  nth_error models (length models - 1) = Some (name, r) /\ df_labels fig = [name].
Proof.
  exists [(s_ "K1_0", results_or 0 ten); (s_ "K2_0", results_or 0 ten)]. do 3 eexists. conj; try (vm_compute; reflexivity). repeat constructor; simpl; intuition discriminate.
Qed.
Print Assumptions C96_zero_refuted.
(** Not so: model number 2 is the one with two clusters; the models are in the order of their paths, K10 before K2. *)
Theorem C96_number_refuted : exists base runs, NoDup runs /\ map fst runs = seq 1 10 /\
  exists name files, py_index (models (map (clusters_of base) runs) (map (stats_of base) runs)) (2 - 1) = Some (name, files) /\ name = s_ "K10_0".
Proof.
  exists [s_ "results"], (map (fun k => (k, 0)) (seq 1 10)). conj; [|reflexivity|do 2 eexists; split; vm_compute; reflexivity].
  cbn. repeat constructor; simpl; intuition discriminate.
Qed.
Print Assumptions C96_number_refuted.
(** Not so: every point has its model's name; after a repeated number the labels move on to the next model. *)
Theorem C96_repeated_refuted : exists models fig k p d, NoDup (map fst models) /\ plot_dic [1; 1; 2]%Z 0 [] (s_ "dic") (s_ "pdf") models = Some fig /\
  nth_error (df_points fig) k = Some (p, d) /\ k = 2 /\ nth_error (map fst models) 1 <> nth_error (df_labels fig) p /\ nth_error (map fst models) 0 = nth_error (df_labels fig) p.
Proof.
  exists [(s_ "K1_0", results_or 0 ten); (s_ "K2_0", results_or 0 ten)]. do 1 eexists. exists 2, 1. eexists. split; [simpl; constructor; [simpl; intuition discriminate|]; constructor; [intros []|constructor]|].
  split; [vm_compute; reflexivity|]. split; [vm_compute; reflexivity|]. split; [reflexivity|]. split; [vm_compute; discriminate|vm_compute; reflexivity].
Qed.
Print Assumptions C96_repeated_refuted.
