(** Properties of the log files and of the results reader: C29-C34, C43. *)
From Verif Require Import L_names.
Set Implicit Arguments.
Unset Strict Implicit.

(** * Demonstration data: two clusters, three objects *)
Definition demo_names : names :=
  {| d_features := [s_ "order"; s_ "tone"];
     d_states := [[s_ "SVO"; s_ "SOV"]; [s_ "yes"; s_ "no_tone"]];
     d_confs := [(s_ "family", [s_ "IE"; s_ "Bantu"]); (s_ "universal", [s_ "ALL"])] |}.
Definition demo_sample (step : Z) (cl : bmat) (a b : Q) : lsample :=
  {| ls_step := inject_Z step; ls_lh := -5; ls_prior := -2; ls_clusters := cl;
     ls_weights := [[1#2; 1#4; 1#4]; [1#3; 1#3; 1#3]]%Q;
     ls_ce := [[[a; 1 - a]; [1#2; 1#2]]; [[b; 1 - b]; [1#3; 2#3]]]%Q;
     ls_cf := [[[[1#2; 1#2]; [1#2; 1#2]]; [[1#5; 4#5]; [1#2; 1#2]]]; [[[1#2; 1#2]; [1#7; 6#7]]]]%Q |}.
Definition demo_s1 := demo_sample 0 [[true; false; false]; [false; true; true]] (1#10) (9#10).
Definition demo_s2 := demo_sample 10 [[false; true; true]; [true; false; false]] (8#10) (2#10).
Example demo_wf : Forall (wf_sample 2 3) [demo_s1; demo_s2].
Proof. repeat constructor. Qed.

(** * C30: label matching *)
(** The permutation chosen for a sample is a permutation, no other one has a larger agreement with the
    arrays logged so far, and it is the first of the best ones. *)
Theorem C30_best_permutation : forall K n logged cl, wf_clusters K n cl ->
  best_label K n logged cl (get_best_permutation cl (table K n logged)).
Proof. exact best_is_label. Qed.
Print Assumptions C30_best_permutation.
(** For the first sample this is the identity. *)
Theorem C30_first_identity : forall K n cl, wf_clusters K n cl ->
  get_best_permutation cl (table K n []) = seq 0 K.
Proof. intros K n cl Hw. eapply first_identity. apply best_is_label, Hw. Qed.
Print Assumptions C30_first_identity.
(** These conditions leave only one choice. *)
Theorem C30_unique : forall K n logged cl p q, best_label K n logged cl p -> best_label K n logged cl q -> p = q.
Proof. exact best_unique. Qed.
Print Assumptions C30_unique.
Example C30_swaps : get_best_permutation (ls_clusters demo_s2) (table 2 3 [ls_clusters demo_s1]) = [1; 0].
Proof. reflexivity. Qed.
(** With a tie the first permutation is kept. *)
Example C30_tie : get_best_permutation [[true; false]; [true; false]] [[1; 0]; [1; 0]] = [0; 1].
Proof. reflexivity. Qed.

(** * C29: the clusters file can be read back *)
(** Logging the samples [s :: ss] and reading the file gives clusters x samples x objects, where cluster [i]
    of sample [t] is the cluster logged with label [i]: number [p_t i] of the sample, for the labels [p_t] of
    C30. *)
Theorem C29_round_trip : forall K n disk s ss, 1 <= K -> 1 <= n -> Forall (wf_sample K n) (s :: ss) ->
  exists ps lg content res,
    labelled K n [] (map ls_clusters (s :: ss)) ps /\
    run_log clusters_header clusters_row (map Write (s :: ss)) (new_logger disk clusters_init) = Some lg /\
    lg_disk lg = Some content /\ read_clusters (concat content) = Some res /\
    length res = K /\
    forall i, i < K -> length (nth i res []) = length (s :: ss) /\
      forall t p x, nth_error ps t = Some p -> nth_error (s :: ss) t = Some x ->
        nth_error (nth i res []) t = Some (nth (nth i p 0) (ls_clusters x) []).
Proof.
  intros K n disk s ss HK Hn Hw.
  destruct (@writes_closed _ _ _ clusters_header clusters_row s ss (new_logger disk clusters_init) eq_refl) as (content & lg & Hr & (out & Hrec & Hc) & _ & Hd).
  assert (Hs : wf_sample K n s) by (inversion Hw; auto).
  destruct (@clusters_records K n (s :: ss) _ [] out Hw (init_matching_of _ (proj1 Hs)) Hrec) as (ps & HL & Ho).
  assert (Hlen : length ps = length (s :: ss)) by (rewrite (labelled_length HL), map_length; auto).
  set (L := map2 (fun p x => reorder [] p (ls_clusters x)) ps (s :: ss)).
  assert (HF : Forall (wf_clusters K n) L).
  { clear -Hw HL. subst L. revert ps HL. generalize (@nil bmat). induction (s :: ss) as [|x xs IH]; intros logged ps HL; simpl in HL; inversion HL; subst; simpl; constructor.
    - inversion Hw as [|? ? Hx _]; subst. apply reorder_wf; [apply Hx|]. match goal with H : best_label _ _ _ _ _ |- _ => apply H end.
    - inversion Hw; subst. eapply IH; eauto. }
  assert (Hrd : read_clusters (concat content) = Some (by_cluster K L)).
  { rewrite Hc. cbn [clusters_header snd app]. rewrite Ho.
    replace (map2 (fun p s0 => clusters_line (renumber p s0)) ps (s :: ss)) with (map (fun cl => format_cluster_columns cl ++ [newline]) L).
    - apply read_clusters_spec with (n := n); auto. subst L. destruct ps; [discriminate|]. discriminate.
    - subst L. clear. revert ps. induction (s :: ss) as [|x xs IH]; intros [|p ps]; simpl; auto. f_equal. apply IH. }
  exists ps, lg, content, (by_cluster K L). conj; auto.
  - unfold by_cluster. rewrite map_length, seq_length. reflexivity.
  - intros i Hi. rewrite by_cluster_nth by auto. split.
    + subst L. rewrite map_length, map2_length. lia.
    + intros t p x Hp Hx. rewrite nth_error_map. subst L. rewrite nth_error_map2, Hp, Hx. simpl. f_equal.
      assert (Hpl : length p = K).
      { clear -HL Hp. revert t Hp. induction HL as [|? ? ? ? ? HB HL IH]; intros [|t] Hp; simpl in Hp; try discriminate; [|eauto].
        injection Hp as <-. apply perm_length, HB. }
      unfold reorder. rewrite (nth_indep _ [] (nth 0 (ls_clusters x) [])) by (rewrite map_length; lia).
      apply (map_nth (fun i => nth i (ls_clusters x) [])).
Qed.
Print Assumptions C29_round_trip.
(** Two samples whose labels are swapped: read back, the labels are aligned. *)
Example C29_demo : exists lg content,
  run_log clusters_header clusters_row (map Write [demo_s1; demo_s2]) (new_logger None clusters_init) = Some lg /\
  lg_disk lg = Some content /\
  read_clusters (concat content) =
    Some [[[true; false; false]; [true; false; false]]; [[false; true; true]; [false; true; true]]].
Proof. eexists _, _. conj; reflexivity. Qed.
(** Corner cases outside of the theorem: without clusters the reader finds one (empty) cluster and no
    samples; without objects all samples are lost. *)
Example C29_no_clusters : read_clusters (clusters_line (demo_sample 0 [] 0 0)) = Some [[]].
Proof. reflexivity. Qed.
Example C29_no_objects : read_clusters (clusters_line (demo_sample 0 [[]] 0 0)) = Some [[]].
Proof. reflexivity. Qed.

(** * C31: the two files use the same labels *)
(** The line that the parameter logger writes for a sample when it does not match clusters. *)
Definition unmatched_line d lh pr fmt (cols : list str) (s : lsample) : list str :=
  snd (params_row d lh pr fmt s {| ps_matching := {| ms_match := false; ms_sum := [] |}; ps_columns := cols |}).
(** Whatever is logged, there is one sequence of labels such that both files are the logs of the renumbered
    samples. *)
Theorem C31_same_labels : forall d lh pr fmt K n disk disk' s ss, Forall (wf_sample K n) (s :: ss) ->
  exists ps lg lg',
    labelled K n [] (map ls_clusters (s :: ss)) ps /\
    run_log clusters_header clusters_row (map Write (s :: ss)) (new_logger disk clusters_init) = Some lg /\
    run_log (params_header d) (params_row d lh pr fmt) (map Write (s :: ss)) (new_logger disk' params_init) = Some lg' /\
    lg_disk lg = Some (map2 (fun p x => format_cluster_columns (ls_clusters (renumber p x)) ++ [newline]) ps (s :: ss)) /\
    lg_disk lg' = Some ((join [tab] (column_names d K) ++ [newline]) ::
                        concat (map2 (fun p x => unmatched_line d lh pr fmt (column_names d K) (renumber p x)) ps (s :: ss))).
Proof.
  intros d lh pr fmt K n disk disk' s ss Hw.
  destruct (@writes_closed _ _ _ clusters_header clusters_row s ss (new_logger disk clusters_init) eq_refl) as (content & lg & Hr & (out & Hrec & Hc) & _ & Hd).
  destruct (@writes_closed _ _ _ (params_header d) (params_row d lh pr fmt) s ss (new_logger disk' params_init) eq_refl) as (content' & lg' & Hr' & (out' & Hrec' & Hc') & _ & Hd').
  assert (Hs : wf_sample K n s) by (inversion Hw; auto).
  assert (HK : length (ls_clusters s) = K) by apply Hs.
  destruct (@params_records d lh pr fmt K n (column_names d K) (s :: ss) (fst (params_header d s params_init)) (fst (clusters_header s clusters_init)) [] out' out) as (ps & HL & Ho & Ho'); auto.
  { unfold params_header. cbn [fst ps_columns]. rewrite HK. reflexivity. }
  { apply (init_matching_of [] (proj1 Hs)). }
  exists ps, lg, lg'. conj; auto.
  - rewrite Hd, Hc. cbn [clusters_header snd app]. rewrite Ho. reflexivity.
  - rewrite Hd', Hc'. unfold params_header at 1. cbn [snd new_logger lg_state]. rewrite HK. cbn [app]. f_equal. f_equal. rewrite Ho'.
    clear -HL. revert ps HL. generalize (@nil bmat). induction (s :: ss) as [|x xs IH]; intros logged ps HL; simpl in HL; inversion HL; subst; [reflexivity|].
    cbn [map2 concat]. erewrite IH by eauto. unfold unmatched_line, params_row, params_line, row_values, matching.
    cbn [ps_matching ms_match fst snd ps_columns apply_perm app]. rewrite map_map. reflexivity.
Qed.
Print Assumptions C31_same_labels.
(** In the demonstration the second sample is renumbered in both files: its first cluster effect (8/10) is
    logged with label 2. *)
Example C31_demo :
  let st := fst (params_row demo_names (fun _ _ _ _ => 0%Q) (fun _ _ _ _ => 0%Q) (fun _ => []) demo_s1 (fst (params_header demo_names demo_s1 params_init))) in
  let items := combine (ps_columns st) (row_values demo_names (fun _ _ _ _ => 0%Q) (fun _ _ _ _ => 0%Q) demo_s2 st) in
  In (s_ "areal_a2_order_SVO", Some (8#10)%Q) items /\ In (s_ "size_a0", Some 1%Q) items.
Proof. vm_compute. tauto. Qed.

(** * C32: header and rows *)
(** The file of the parameter logger: one header with the names of all columns, in the documented order, and
    for each sample a row with the value of each column (of the renumbered sample, C31), in this order --
    if distinct columns have distinct names. *)
Theorem C32_header_rows_partial : forall d lh pr fmt K n disk s ss, distinct_names d K -> Forall (wf_sample K n) (s :: ss) ->
  exists ps lg,
    labelled K n [] (map ls_clusters (s :: ss)) ps /\
    run_log (params_header d) (params_row d lh pr fmt) (map Write (s :: ss)) (new_logger disk params_init) = Some lg /\
    lg_disk lg = Some ((join [tab] (map (column_name d) (columns d K)) ++ [newline]) ::
      map2 (fun p x => join [tab] (map (fun c => fmt (column_value lh pr (renumber p x) c)) (columns d K)) ++ [newline]) ps (s :: ss)).
Proof.
  intros d lh pr fmt K n disk s ss Hd Hw.
  destruct (@C31_same_labels d lh pr fmt K n None disk s ss Hw) as (ps & _ & lg & HL & _ & Hr & _ & Hlg).
  exists ps, lg. conj; auto. rewrite Hlg, column_names_spec. f_equal. f_equal.
  clear -HL Hd Hw. revert ps HL. generalize (@nil bmat). induction (s :: ss) as [|x xs IH]; intros logged ps HL; simpl in HL; inversion HL; subst; [reflexivity|].
  inversion Hw as [|? ? Hx Hw']; subst. cbn [map2 concat]. erewrite IH by eauto.
  unfold unmatched_line, params_row, row_values, matching. cbn [ps_matching ms_match fst snd ps_columns apply_perm app]. f_equal. f_equal. f_equal.
  rewrite !map_map. apply map_ext_in. intros c Hc.
  assert (EK : length (ls_clusters (renumber p x)) = K).
  { simpl. unfold reorder. rewrite map_length. apply perm_length. match goal with H : best_label _ _ _ _ _ |- _ => apply H end. }
  rewrite row_values_spec; rewrite ?EK; auto.
Qed.
Print Assumptions C32_header_rows_partial.
(** Names without underscores, pairwise distinct, and no confounder called "areal": then distinct columns
    have distinct names.  (States may contain underscores.) *)
Theorem C32_clean_names : forall d K, clean_names d -> distinct_names d K.
Proof. exact clean_distinct. Qed.
Print Assumptions C32_clean_names.
(** Whatever the names: the header has one name per column, and no column is missing in a row. *)
Theorem C32_complete : forall d lh pr K n s, wf_sample K n s ->
  column_names d K = map (column_name d) (columns d K) /\
  forall c, In c (columns d K) -> dict_get (row_items d lh pr s (ls_clusters s) (ls_ce s)) (column_name d c) <> None.
Proof.
  intros d lh pr K n s Hs. split; [apply column_names_spec|]. intros c Hc. apply row_complete.
  rewrite (proj1 (proj1 Hs)). exact Hc.
Qed.
Print Assumptions C32_complete.
Example demo_clean : clean_names demo_names.
Proof.
  unfold clean_names. conj; try reflexivity.
  - repeat constructor; simpl; intuition discriminate.
  - repeat constructor; intros H; simpl in H; repeat destruct H as [H|H]; try discriminate; auto.
  - repeat constructor; simpl; intuition discriminate.
  - repeat constructor; simpl; intuition discriminate.
  - repeat apply Forall_cons; [| |apply Forall_nil]; conj; try discriminate;
      try (intros H; simpl in H; repeat destruct H as [H|H]; try discriminate; auto; fail);
      try (repeat constructor; simpl; intuition discriminate);
      repeat constructor; intros H; simpl in H; repeat destruct H as [H|H]; try discriminate; auto.
Qed.
Example C32_demo : length (columns demo_names 2) = 38%nat.
Proof. reflexivity. Qed.
(** With underscores in names, two columns can have the same name, and the value of one of them is logged
    for both: group "g" with feature "f_f" and group "g_f" with feature "f". *)
Definition bad_names : names :=
  {| d_features := [s_ "f"; s_ "f_f"]; d_states := [[s_ "x"; s_ "y"]; [s_ "x"; s_ "y"]];
     d_confs := [(s_ "c", [s_ "g"; s_ "g_f"])] |}.
Definition bad_sample : lsample :=
  {| ls_step := 0; ls_lh := -1; ls_prior := -1; ls_clusters := [[true]]; ls_weights := [[1#2; 1#2]; [1#2; 1#2]];
     ls_ce := [[[1#2; 1#2]; [1#2; 1#2]]];
     ls_cf := [[[[1#4; 3#4]; [1#5; 4#5]]; [[1#6; 5#6]; [1#7; 6#7]]]] |}%Q.
Theorem C32_header_rows_refuted : exists d s c, wf_sample 1 1 s /\ NoDup (d_features d) /\ NoDup (map fst (d_confs d)) /\
  Forall (fun '(_, gs) => NoDup gs) (d_confs d) /\ Forall (@NoDup str) (d_states d) /\ In c (columns d 1) /\
  forall lh pr, dict_get (row_items d lh pr s (ls_clusters s) (ls_ce s)) (column_name d c) <> Some (column_value lh pr s c).
Proof.
  exists bad_names, bad_sample, (CConf 0 0 1 0). conj.
  - repeat constructor.
  - repeat constructor; simpl; intuition discriminate.
  - repeat constructor; simpl; intuition discriminate.
  - repeat constructor; simpl; intuition discriminate.
  - repeat constructor; simpl; intuition discriminate.
  - vm_compute. tauto.
  - intros lh pr. vm_compute. discriminate.
Qed.
Print Assumptions C32_header_rows_refuted.
(** Also with a confounder called "areal". *)
Example C32_areal :
  ~ distinct_names {| d_features := [s_ "f"]; d_states := [[s_ "x"]]; d_confs := [(s_ "areal", [s_ "g"])] |} 1.
Proof. intros H. specialize (H (CWeight 0 0) (CWeight 0 1)). vm_compute in H. discriminate H; tauto. Qed.

(** * C33: names read back from the header *)
Theorem C33_names_partial : forall d K, clean_names d -> no_reserved d -> inhabited_names d ->
  get_groups_by_confounder (column_names d K) = Some (d_confs d) /\
  get_cluster_names (column_names d K) = Some (map (fun i => s_ "a" ++ str_nat (i + 1)) (seq 0 K)) /\
  forall i, i < K -> extract_features_and_states (column_names d K) (s_ "areal_" ++ s_ "a" ++ str_nat (i + 1)) = combine (d_features d) (d_states d).
Proof.
  intros d K H1 H2 H3. conj.
  - apply groups_by_confounder; auto.
  - apply areal_names; auto.
  - intros i Hi. apply (@features_states d K); auto.
Qed.
Print Assumptions C33_names_partial.
Example demo_reserved : no_reserved demo_names /\ inhabited_names demo_names.
Proof.
  split.
  - repeat apply Forall_cons; try apply Forall_nil; simpl; intuition discriminate.
  - split; [discriminate|]. repeat constructor; discriminate.
Qed.
Example C33_demo : get_groups_by_confounder (column_names demo_names 2) = Some (d_confs demo_names) /\
  extract_features_and_states (column_names demo_names 2) (s_ "areal_a1") = combine (d_features demo_names) (d_states demo_names).
Proof. split; reflexivity. Qed.
(** False for arbitrary (distinct) names: a confounder called "prior" makes the reader raise ValueError;
    groups with underscores lose their last part and are merged; features with underscores are split. *)
Theorem C33_names_refuted :
  (exists d K, clean_names d /\ inhabited_names d /\ get_groups_by_confounder (column_names d K) = None) /\
  (exists d K, no_reserved d /\ inhabited_names d /\ Forall plain (d_features d) /\
     get_groups_by_confounder (column_names d K) = Some [(s_ "family", [s_ "Indo"])] /\ d_confs d = [(s_ "family", [s_ "Indo_European"; s_ "Indo_Aryan"])]) /\
  (exists d K, no_reserved d /\ inhabited_names d /\ Forall (fun '(_, gs) => Forall plain gs) (d_confs d) /\
     extract_features_and_states (column_names d K) (s_ "areal_a1") = [(s_ "word", [s_ "order_SVO"; s_ "order_SOV"])] /\
     d_features d = [s_ "word_order"]).
Proof.
  conj.
  - exists {| d_features := [s_ "f"]; d_states := [[s_ "x"]]; d_confs := [(s_ "prior", [s_ "g"])] |}, 1. conj.
    + unfold clean_names. conj; try reflexivity; try (repeat constructor; unfold plain; simpl; intuition discriminate).
    + split; [discriminate|]. repeat constructor; discriminate.
    + reflexivity.
  - exists {| d_features := [s_ "f"]; d_states := [[s_ "x"]]; d_confs := [(s_ "family", [s_ "Indo_European"; s_ "Indo_Aryan"])] |}, 1. conj.
    + repeat apply Forall_cons; try apply Forall_nil; simpl; intuition discriminate.
    + split; [discriminate|]. repeat constructor; discriminate.
    + repeat constructor; unfold plain; simpl; intuition discriminate.
    + reflexivity.
    + reflexivity.
  - exists {| d_features := [s_ "word_order"]; d_states := [[s_ "SVO"; s_ "SOV"]]; d_confs := [(s_ "family", [s_ "IE"])] |}, 1. conj.
    + repeat apply Forall_cons; try apply Forall_nil; simpl; intuition discriminate.
    + split; [discriminate|]. repeat constructor; discriminate.
    + repeat constructor; unfold plain; simpl; intuition discriminate.
    + reflexivity.
    + reflexivity.
Qed.
Print Assumptions C33_names_refuted.

(** * C34: burn-in *)
Theorem C34_burn_in : forall Row (clusters : list bmat) (params : list Row) burn_in n,
  clusters <> [] -> Forall (fun c => length c = n) clusters -> length params = n -> (0 <= burn_in)%Q -> (burn_in <= 1)%Q ->
  exists i, i <= n /\
    (inject_Z (Z.of_nat i) <= burn_in * inject_Z (Z.of_nat n))%Q /\ (burn_in * inject_Z (Z.of_nat n) < inject_Z (Z.of_nat i + 1))%Q /\
    snd (drop_burnin clusters params burn_in) = skipn i params /\
    fst (drop_burnin clusters params burn_in) = map (skipn i) clusters.
Proof.
  intros Row clusters params q n Hne HF Hp H0 H1. destruct (burnin_index n H0 H1) as (i & Hi & Hle & Hlo & Hhi).
  exists i. conj; auto.
  - unfold drop_burnin. destruct clusters as [|c r]; [congruence|]. inversion HF as [|? ? Hc _]; subst c. rewrite Hc.
    cbn [snd]. rewrite Hi. unfold slice_from. destruct (Z.ltb_spec (Z.of_nat i) 0); [lia|]. rewrite Nat2Z.id. reflexivity.
  - unfold drop_burnin. destruct clusters as [|c r]; [congruence|]. inversion HF as [|? ? Hc _]; subst c. rewrite Hc.
    cbn [fst]. rewrite Hi. apply map_ext. intros l0. unfold slice_from. destruct (Z.ltb_spec (Z.of_nat i) 0); [lia|]. rewrite Nat2Z.id. reflexivity.
Qed.
Print Assumptions C34_burn_in.
Example C34_demo : drop_burnin [[[true]; [false]; [true]; [true]; [false]]] [1; 2; 3; 4; 5] (1#2) = ([[[true]; [true]; [false]]], [3; 4; 5]).
Proof. reflexivity. Qed.

(** * C43: structure of log files *)
(** From any earlier content of the path: writing at least one sample, and possibly closing, leaves one
    header (of the first sample) followed by the records of all samples, in order. *)
Theorem C43_file_partial : forall State Sample Chunk (header row : Sample -> State -> State * list Chunk) disk st s ss,
  exists lg lg' content,
    run_log header row (map Write (s :: ss)) (new_logger disk st) = Some lg /\ lg_disk lg = Some content /\
    run_log header row (map Write (s :: ss) ++ [Close]) (new_logger disk st) = Some lg' /\ lg_disk lg' = Some content /\
    good_file header row st s ss content.
Proof.
  intros State Sample Chunk header row disk st s ss.
  destruct (@writes_closed _ _ _ header row s ss (new_logger disk st) eq_refl) as (content & lg & Hr & Hg & Ho & Hd).
  exists lg, {| lg_disk := lg_disk lg; lg_open := false; lg_state := lg_state lg |}, content. conj; auto.
  rewrite run_app, Hr. simpl. unfold close. rewrite Ho. reflexivity.
Qed.
Print Assumptions C43_file_partial.
(** In general the file has the samples since the last time it was opened. *)
Theorem C43_since_opened : forall State Sample Chunk (header row : Sample -> State -> State * list Chunk) lg0 ops lg1 s ss,
  run_log header row (ops ++ [Close]) lg0 = Some lg1 ->
  exists lg content, run_log header row (ops ++ Close :: map Write (s :: ss)) lg0 = Some lg /\ lg_disk lg = Some content /\
    good_file header row (lg_state lg1) s ss content.
Proof.
  intros State Sample Chunk header row lg0 ops lg1 s ss H.
  assert (Hcl : lg_open lg1 = false).
  { rewrite run_app in H. destruct (run_log header row ops lg0) as [l|]; [|discriminate]. simpl in H. unfold close in H.
    destruct (lg_open l); [|discriminate]. injection H as <-. reflexivity. }
  destruct (@writes_closed _ _ _ header row s ss lg1 Hcl) as (content & lg & Hr & Hg & Ho & Hd).
  exists lg, content. conj; auto.
  change (Close :: map Write (s :: ss)) with ([Close] ++ map Write (s :: ss)). rewrite app_assoc, run_app, H. exact Hr.
Qed.
Print Assumptions C43_since_opened.
(** "Closing never loses records" is false when logging goes on: the file is truncated. *)
Theorem C43_file_refuted : exists s s' lg,
  wf_sample 2 3 s /\ wf_sample 2 3 s' /\
  run_log clusters_header clusters_row [Write s; Close; Write s'] (new_logger None clusters_init) = Some lg /\
  forall content, lg_disk lg = Some content -> ~ good_file clusters_header clusters_row clusters_init s [s'] content.
Proof.
  exists demo_s1, demo_s2. eexists. conj; try (repeat constructor).
  intros content Hd (out & Hrec & Hc). injection Hd as <-.
  inversion Hrec as [|? ? ? ? Hrec' E1]; subst. inversion Hrec' as [|? ? ? ? Hrec'' E2]; subst. inversion Hrec''; subst.
  vm_compute in Hc. discriminate.
Qed.
Print Assumptions C43_file_refuted.
(** Closing a logger that never got a sample raises (AttributeError). *)
Theorem C43_close_unopened : forall State Sample Chunk (header row : Sample -> State -> State * list Chunk) disk st,
  run_log header row [Close] (new_logger disk st) = None.
Proof. reflexivity. Qed.
Print Assumptions C43_close_unopened.
Example C43_demo : exists lg, run_log clusters_header clusters_row [Write demo_s1; Write demo_s2; Close] (new_logger (Some [s_ "old"]) clusters_init) = Some lg /\
  lg_disk lg = Some [encode_cluster [true; false; false] ++ [tab] ++ encode_cluster [false; true; true] ++ [newline];
                     encode_cluster [true; false; false] ++ [tab] ++ encode_cluster [false; true; true] ++ [newline]].
Proof. eexists. split; reflexivity. Qed.
