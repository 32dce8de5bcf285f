(** C36-C39: loading of data. *)
From Coq Require Import Lqa.
From Verif Require Import L_data.
Set Implicit Arguments.
Unset Strict Implicit.

(** * C36: the encoding of features *)
(** Every observed value is encoded by exactly one position, which decodes to the value; missing values are
    all false.  (Distinct names have distinct positions because a position decodes to one name.) *)
Theorem C36_encoding n data fs e : encode_states n data fs = Some e -> Forall (fun '(_, st) => length st = n) fs ->
  forall f name st raw, nth_error fs f = Some (name, st) -> get_col data name = Some raw ->
  exists vals, nth_error (enc_values e) f = Some vals /\ length vals = length raw /\
  forall o v, nth_error raw o = Some v -> exists r, nth_error vals o = Some r /\ length r = n /\
    match v with
    | None => forall j, nth j r false = false
    | Some x => exists i, i < n /\ hot_at r i /\ nth_error (nth f (enc_names e) []) i = Some x
    end.
Proof.
  intros H HF f name st raw Hf Hc. destruct (encode_states_inv H) as (_ & Hn & Hinv).
  destruct (Hinv f name st Hf) as (raw' & vals & Hc' & He & Hv). assert (raw' = raw) by congruence. subst raw'.
  exists vals. split; auto. rewrite Forall_forall in HF. assert (Hl := HF _ (nth_error_In _ _ Hf)).
  destruct (encode_feature_spec Hl He) as (Hlen & Hs). split; auto. intros o v Ho. destruct (Hs o v Ho) as (r & Hr & Hrl & Hm).
  exists r. conj; auto. rewrite Hn, (nth_error_nth _ f [] (map_nth_error _ f fs Hf)). exact Hm.
Qed.
Print Assumptions C36_encoding.

(** Different names of the same feature never share a position. *)
Theorem C36_distinct n data fs e : encode_states n data fs = Some e -> Forall (fun '(_, st) => length st = n) fs ->
  forall f name st raw vals o o' x y r r' i, nth_error fs f = Some (name, st) -> get_col data name = Some raw ->
  nth_error (enc_values e) f = Some vals ->
  nth_error raw o = Some (Some x) -> nth_error raw o' = Some (Some y) ->
  nth_error vals o = Some r -> nth_error vals o' = Some r' ->
  nth i r false = true -> nth i r' false = true -> x = y.
Proof.
  intros H HF f name st raw vals o o' x y r r' i Hf Hc Hv Ho Ho' Hr Hr' Hi Hi'.
  destruct (C36_encoding H HF Hf Hc) as (vals' & Hv' & _ & Hs). assert (vals' = vals) by congruence. subst vals'.
  destruct (Hs _ _ Ho) as (r1 & Hr1 & _ & i1 & _ & Hh1 & Hn1). destruct (Hs _ _ Ho') as (r2 & Hr2 & _ & i2 & _ & Hh2 & Hn2).
  assert (r1 = r) by congruence. assert (r2 = r') by congruence. subst r1 r2.
  apply Hh1 in Hi. apply Hh2 in Hi'. congruence.
Qed.
Print Assumptions C36_distinct.

(** Loading succeeds exactly if all columns exist and contain listed states only: unknown names are rejected. *)
Theorem C36_rejects n data fs :
  (exists e, encode_states n data fs = Some e) <->
  (forall name st, In (name, st) fs -> exists raw, get_col data name = Some raw /\ forall x, In (Some x) raw -> In (Some x) st).
Proof. apply encode_states_accepts. Qed.
Print Assumptions C36_rejects.

(** The reported number of missing values: the blank cells of the feature columns. *)
Fixpoint blanks (col : list (option str)) : nat := match col with [] => 0 | None :: r => S (blanks r) | Some _ :: r => blanks r end.
Theorem C36_missing n data fs e : encode_states n data fs = Some e ->
  enc_na e = list_sum (map (fun '(name, _) => match get_col data name with Some raw => blanks raw | None => 0 end) fs).
Proof.
  unfold encode_states. destruct (all_opt' _) as [vs|] eqn:E; [|discriminate]. intros H. injection H as <-. cbn [enc_na].
  apply all_opt'_Forall2 in E. revert vs E. induction fs as [|[name st] fs IH]; intros vs E; cbn [map] in *; inversion_clear E as [|? y ? r Hy Hr]; [reflexivity|].
  cbn [map list_sum fold_right]. unfold list_sum in IH. rewrite (IH _ Hr). f_equal.
  destruct (get_col data name) as [raw|]; [|discriminate]. destruct (encode_feature n st raw); [|discriminate]. injection Hy as <-.
  clear. induction raw as [|[x|] raw IH]; simpl; auto.
Qed.
Print Assumptions C36_missing.
Example C36_missing_case : exists e, encode_states 2 [(s_ "F", [Some (s_ "A"); None; None]); (s_ "G", [None; Some (s_ "B"); Some (s_ "B")])]
    [(s_ "F", [Some (s_ "A"); None]); (s_ "G", [Some (s_ "A"); Some (s_ "B")])] = Some e /\ enc_na e = 3.
Proof. eexists. split; vm_compute; reflexivity. Qed.

(** The position is marked applicable: if the states are listed without gaps.  Missing for the full statement:
    tables with gaps, for which it is false. *)
Theorem C36_applicable_partial n data fs e : encode_states n data fs = Some e -> Forall (fun '(_, st) => length st = n) fs ->
  forall f name st raw vals o x r i, nth_error fs f = Some (name, st) -> gap_free st -> get_col data name = Some raw ->
  nth_error (enc_values e) f = Some vals -> nth_error raw o = Some (Some x) -> nth_error vals o = Some r ->
  nth i r false = true -> nth i (nth f (enc_states e) []) false = true.
Proof.
  intros H HF f name st raw vals o x r i Hf (ss & k & ->) Hc Hv Ho Hr Hi.
  destruct (C36_encoding H HF Hf Hc) as (vals' & Hv' & _ & Hs). assert (vals' = vals) by congruence. subst vals'.
  destruct (Hs _ _ Ho) as (r1 & Hr1 & _ & i1 & _ & Hh1 & Hn1). assert (r1 = r) by congruence. subst r1. apply Hh1 in Hi. subst i1.
  destruct (encode_states_inv H) as (Ha & Hnm & _).
  rewrite Hnm, (nth_error_nth _ f [] (map_nth_error _ f fs Hf)), dropna_gap_free in Hn1.
  rewrite Ha, (nth_error_nth _ f [] (map_nth_error _ f fs Hf)).
  apply nth_error_nth. rewrite map_app, nth_error_app1.
  - rewrite !nth_error_map, Hn1. reflexivity.
  - rewrite !map_length. apply nth_error_Some_lt in Hn1. exact Hn1.
Qed.
Print Assumptions C36_applicable_partial.

(** With a gap, a value is encoded at a position that is marked inapplicable. *)
Definition demo_data : frame := [(s_ "F1", [Some (s_ "B"); None; Some (s_ "A")])].
Definition demo_gap : frame := [(s_ "F1", [Some (s_ "A"); None; Some (s_ "B")])].
Definition demo_states : frame := [(s_ "F1", [Some (s_ "A"); Some (s_ "B"); None])].
Theorem C36_applicable_refuted : exists n data fs e vals r i,
  Forall (fun '(_, st) => length st = n) fs /\ encode_states n data fs = Some e /\
  nth_error (enc_values e) 0 = Some vals /\ nth_error vals 0 = Some r /\ nth i r false = true /\
  nth i (nth 0 (enc_states e) []) false = false.
Proof.
  exists 3, demo_data, demo_gap. eexists. eexists. eexists. exists 1. conj; try (vm_compute; reflexivity). repeat constructor.
Qed.
Print Assumptions C36_applicable_refuted.
Example C36_demo : exists e, encode_states 3 demo_data demo_states = Some e /\
  enc_values e = [[[false; true; false]; [false; false; false]; [true; false; false]]] /\
  Forall (fun '(_, st) => length st = 3) demo_states /\ gap_free (snd (hd ([], []) demo_states)) /\
  encode_states 3 [(s_ "F1", [Some (s_ "C")])] demo_states = None.
Proof.
  eexists. conj; try (vm_compute; reflexivity); [repeat constructor|]. exists [s_ "A"; s_ "B"], 1. reflexivity.
Qed.

(** * C37: the extraction tool *)
(** The table lists for each feature exactly the occurring states, sorted and without gaps. *)
Theorem C37_exact na files out : Forall (fun f : csv => NoDup (map fst f)) files -> extract_feature_states na files = Some out ->
  forall n col, In (n, col) out -> exists ss k, col = ss ++ repeat [] k /\ increasing ss /\
    forall x, In x ss <-> exists f, In f files /\ occurs na f n x.
Proof.
  intros HF H n col Hin. destruct (extract_spec HF H) as (d & -> & _ & _ & Hd). unfold write_states in Hin.
  apply in_map_iff in Hin. destruct Hin as ((m, ss) & E & Hin). injection E as -> <-. destruct (Hd n ss Hin) as (Hi & Hx). eauto.
Qed.
Print Assumptions C37_exact.

(** ... and it has a column for every feature of every file. *)
Theorem C37_columns na files out : Forall (fun f : csv => NoDup (map fst f)) files -> extract_feature_states na files = Some out ->
  forall f, In f files -> forall n, In n (map fst out) <-> In n (map fst f) /\ ~ In n metadata.
Proof.
  intros HF H f Hf n. destruct (extract_spec HF H) as (d & -> & _ & Hk & _). unfold write_states. rewrite map_map.
  rewrite (map_ext _ fst) by (intros (a, b); reflexivity). apply Hk, Hf.
Qed.
Print Assumptions C37_columns.

(** Loading any of the files with the table succeeds and the table has no gaps, if no cell becomes a missing
    value by stripping.  Missing for the full statement: such cells, for which it is false. *)
Theorem C37_loads_partial na files out : na [] = true ->
  Forall (fun f : csv => NoDup (map fst f)) files ->
  (forall f n cells c, In f files -> In (n, cells) f -> In c cells -> na c = false -> na (strip c) = false) ->
  extract_feature_states na files = Some out ->
  (exists n_states, Forall (fun '(_, st) => length st = n_states /\ gap_free st) (read_csv na out)) /\
  forall f n, In f files -> exists e, encode_states n (read_csv na f) (read_csv na out) = Some e.
Proof.
  intros H0 HF Hna H. destruct (extract_spec HF H) as (d & -> & HN & Hk & Hd).
  assert (Hread : forall n ss, In (n, ss) d -> forall x, In x ss -> na x = false /\ strip x = x).
  { intros n ss Hin x Hx. apply (proj2 (Hd n ss Hin)) in Hx. destruct Hx as (f & Hf & cells & c & Hg & Hc & Hcna & <-).
    split; [|apply strip_idem]. apply (Hna f n cells c); auto. apply get_col_In, Hg. }
  assert (Hin : forall n st, In (n, st) (read_csv na (write_states d)) -> exists ss k, In (n, ss) d /\ k = max_len d - length ss /\ st = map Some ss ++ repeat None k).
  { intros n st Hin. unfold read_csv, write_states in Hin. rewrite map_map in Hin. apply in_map_iff in Hin.
    destruct Hin as ((m, ss) & E & Hin). injection E as -> <-. exists ss. eexists. conj; eauto. apply read_states; auto. eapply Hread; eauto. }
  split.
  - exists (max_len d). apply Forall_forall. intros (n, st) Hst. destruct (Hin n st Hst) as (ss & k & Hss & -> & ->). split.
    + rewrite app_length, map_length, repeat_length. pose proof (max_len_ge Hss). lia.
    + exists ss. eauto.
  - intros f n Hf. apply (proj2 (encode_states_accepts n (read_csv na f) (read_csv na (write_states d)))).
    intros name st Hst. destruct (Hin name st Hst) as (ss & k & Hss & -> & ->).
    assert (Hn : In name (map fst f)). { apply (Hk f Hf name). apply in_map_iff. exists (name, ss). auto. }
    destruct (get_col_some Hn) as (cells & Hg). exists (map (read_cell na) cells). split.
    + unfold read_csv. rewrite get_col_map, Hg. reflexivity.
    + intros x Hx. apply in_or_app. left. apply in_map. apply (proj2 (Hd name ss Hss)). exists f. split; auto.
      apply in_map_iff in Hx. destruct Hx as (c & Hc & Hc'). apply read_cell_some in Hc. destruct Hc as (Hc1 & Hc2).
      exists cells, c. auto.
Qed.
Print Assumptions C37_loads_partial.

(** A cell holding only a blank is an observed (empty) state, but its line in the table is read as missing:
    the same data cannot be loaded. *)
Definition demo_na (x : str) : bool := mem x (map s_ [""; "NA"]%string).
Definition demo_csv (c : string) : csv :=
  [(s_ "id", [s_ "1"; s_ "2"]); (s_ "name", [s_ "a"; s_ "b"]); (s_ "family", [s_ ""; s_ ""]); (s_ "x", [s_ "0"; s_ "0"]);
   (s_ "y", [s_ "0"; s_ "1"]); (s_ "F1", [s_ "B"; s_ c])].
Theorem C37_loads_refuted : exists na files out f, na [] = true /\ Forall (fun f : csv => NoDup (map fst f)) files /\
  extract_feature_states na files = Some out /\ In f files /\ encode_states 2 (read_csv na f) (read_csv na out) = None.
Proof.
  exists demo_na, [demo_csv " "]. eexists. exists (demo_csv " "). conj; try (vm_compute; reflexivity).
  - constructor; [|constructor]. simpl. repeat constructor; simpl; intuition discriminate.
  - left. reflexivity.
Qed.
Print Assumptions C37_loads_refuted.
Example C37_demo : exists out, extract_feature_states demo_na [demo_csv "A "; demo_csv "NA"] = Some out /\
  out = [(s_ "F1", [s_ "A"; s_ "B"])] /\ demo_na [] = true /\
  Forall (fun f : csv => NoDup (map fst f)) [demo_csv "A "; demo_csv "NA"] /\
  forallb (fun '(_, cells) => forallb (fun c => demo_na c || negb (demo_na (strip c))) cells) (demo_csv "A " ++ demo_csv "NA") = true.
Proof.
  eexists. conj; try (vm_compute; reflexivity).
  constructor; [|constructor; [|constructor]]; simpl; repeat constructor; simpl; intuition discriminate.
Qed.

(** * C38: confounders *)
(** An object belongs to a group exactly if this group is named in its row; nobody else; groups are never empty. *)
Theorem C38_groups n data name gs c col : get_col data name = Some col -> confounder_from_dataframe n data name gs = Some c ->
  length (cd_assignment c) = length (cd_groups c) /\
  (forall g x o v, nth_error (cd_groups c) g = Some x -> nth_error col o = Some v ->
     (nth o (nth g (cd_assignment c) []) false = true <-> v = Some x)) /\
  (forall g, g < length (cd_groups c) -> exists o, o < length col /\ nth o (nth g (cd_assignment c) []) false = true) /\
  (forall x, In (Some x) col <-> In x (cd_groups c)).
Proof.
  intros Hc H. destruct (confounder_inv Hc H) as (Ha & Hg & _).
  assert (Hm : forall g x o v, nth_error (cd_groups c) g = Some x -> nth_error col o = Some v -> (nth o (nth g (cd_assignment c) []) false = true <-> v = Some x)).
  { intros g x o v Hx Hv. rewrite Ha, (nth_error_nth _ g [] (map_nth_error _ g _ Hx)), (nth_error_nth _ o false (map_nth_error _ o _ Hv)).
    destruct v as [y|]; [rewrite str_eqb_eq|]; split; congruence. }
  conj.
  - rewrite Ha, map_length. reflexivity.
  - exact Hm.
  - intros g Hlt. destruct (nth_error (cd_groups c) g) as [x|] eqn:E; [|apply nth_error_None in E; lia].
    assert (Hx := proj1 (Hg x) (nth_error_In _ _ E)). apply In_nth_error in Hx. destruct Hx as (o & Ho). exists o. split.
    + apply nth_error_Some_lt in Ho. exact Ho.
    + apply (Hm g x o (Some x)); auto.
  - intros x. symmetry. apply Hg.
Qed.
Print Assumptions C38_groups.

(** A labelled object is in exactly one group, an unlabelled one in none: if the configured names are distinct.
    Missing for the full statement: repeated names, for which it is false. *)
Theorem C38_one_group_partial n data name gs c col : get_col data name = Some col -> confounder_from_dataframe n data name gs = Some c ->
  (match gs with Some l => NoDup l | None => True end) ->
  forall o v, nth_error col o = Some v ->
  match v with
  | Some _ => exists g, forall g', nth o (nth g' (cd_assignment c) []) false = true <-> g' = g
  | None => forall g, nth o (nth g (cd_assignment c) []) false = false
  end.
Proof.
  intros Hc H HN o v Ho. destruct (confounder_inv Hc H) as (Ha & Hg & Hgs). destruct (C38_groups Hc H) as (Hl & Hm & _).
  assert (HN' : NoDup (cd_groups c)) by (destruct gs; [rewrite Hgs; exact HN|exact Hgs]).
  assert (Hover : forall g, length (cd_groups c) <= g -> nth o (nth g (cd_assignment c) []) false = false).
  { intros g Hlt. rewrite (nth_overflow (cd_assignment c)) by lia. destruct o; reflexivity. }
  destruct v as [x|].
  - assert (Hx := proj2 (Hg x) (nth_error_In _ _ Ho)). apply In_nth_error in Hx. destruct Hx as (g & Hx). exists g. intros g'. split.
    + intros Ht. destruct (nth_error (cd_groups c) g') as [y|] eqn:E.
      * apply (Hm g' y o (Some x) E Ho) in Ht. injection Ht as <-.
        eapply NoDup_nth_error; eauto; [|congruence]. apply nth_error_Some_lt in E. exact E.
      * apply nth_error_None in E. rewrite Hover in Ht by auto. discriminate.
    + intros ->. apply (Hm g x o (Some x)); auto.
  - intros g. destruct (nth_error (cd_groups c) g) as [y|] eqn:E.
    + destruct (nth o (nth g (cd_assignment c) []) false) eqn:Et; auto. apply (Hm g y o None E Ho) in Et. discriminate.
    + apply nth_error_None in E. auto.
Qed.
Print Assumptions C38_one_group_partial.

(** Configured names that are not those of the data are rejected. *)
Theorem C38_rejects n data name gs col : get_col data name = Some col ->
  ((exists c, confounder_from_dataframe n data name (Some gs) = Some c) <-> forall x, In x gs <-> In (Some x) col).
Proof.
  intros Hc. split.
  - intros (c & H). destruct (confounder_inv Hc H) as (_ & Hg & <-). exact Hg.
  - intros H. unfold confounder_from_dataframe. rewrite Hc.
    assert (E : set_eqb gs (sorted_set (dropna col)) = true); [|rewrite E; eauto].
    apply set_eqb_spec. intros x. rewrite sorted_set_In, dropna_In. apply H.
Qed.
Print Assumptions C38_rejects.

(** Without a column, the only accepted configuration is the universal group, which contains all objects. *)
Theorem C38_all n data name gs c : get_col data name = None -> confounder_from_dataframe n data name gs = Some c ->
  gs = Some [s_ "<ALL>"] /\ cd_groups c = [s_ "<ALL>"] /\ length (cd_assignment c) = 1 /\
  forall o, o < n -> nth o (nth 0 (cd_assignment c) []) false = true.
Proof.
  intros Hc H. unfold confounder_from_dataframe in H. rewrite Hc in H. destruct gs as [[|g [|g' l]]|]; try discriminate.
  destruct (str_eqb g (s_ "<ALL>")) eqn:E; [|discriminate]. apply str_eqb_eq in E. subst g. injection H as <-.
  cbn [cd_groups cd_assignment]. conj; auto. intros o Ho. simpl. rewrite nth_indep with (d' := true) by (rewrite repeat_length; auto). apply nth_repeat.
Qed.
Print Assumptions C38_all.

(** A repeated configured name passes the check and puts objects into two groups. *)
Definition demo_conf : frame := [(s_ "family", [Some (s_ "b"); None; Some (s_ "a"); Some (s_ "b")])].
Theorem C38_one_group_refuted : exists n data name gs c o g g', confounder_from_dataframe n data name (Some gs) = Some c /\
  g <> g' /\ nth o (nth g (cd_assignment c) []) false = true /\ nth o (nth g' (cd_assignment c) []) false = true.
Proof.
  exists 4, demo_conf, (s_ "family"), [s_ "a"; s_ "b"; s_ "a"]. eexists. exists 2, 0, 2. conj; try (vm_compute; reflexivity). lia.
Qed.
Print Assumptions C38_one_group_refuted.
Example C38_demo : exists c, confounder_from_dataframe 4 demo_conf (s_ "family") (Some [s_ "b"; s_ "a"]) = Some c /\
  cd_assignment c = [[true; false; false; true]; [false; false; true; false]] /\ NoDup [s_ "b"; s_ "a"] /\
  get_col demo_conf (s_ "family") = Some [Some (s_ "b"); None; Some (s_ "a"); Some (s_ "b")] /\
  confounder_from_dataframe 4 demo_conf (s_ "family") (Some [s_ "b"]) = None.
Proof. eexists. conj; try (vm_compute; reflexivity). repeat constructor; simpl; intuition discriminate. Qed.

(** * C39: the cost matrix *)
(** Entry (i,j) is the file's cost for objects i and j, or the average of both directions.  Symmetry is exact
    if the file is symmetric or if some pair differs by more than the tolerance.  Missing for the full
    statement: files whose directions all agree within the tolerance but not exactly, for which it is false;
    there both directions agree within the tolerance. *)
Theorem C39_costs_partial names f m : read_geo_cost_matrix names f = Some m -> NoDup (cf_rows f) -> NoDup (cf_cols f) ->
  length m = length names /\ Forall (fun r => length r = length names) m /\
  (forall i j x y q q', nth_error names i = Some x -> nth_error names j = Some y -> file_cost f x y q -> file_cost f y x q' ->
     (q == q' -> entry m i j == q)%Q /\ (entry m i j = q \/ entry m i j = ((q + q') / 2)%Q)) /\
  (((exists x y q q', In x names /\ In y names /\ file_cost f x y q /\ file_cost f y x q' /\ ((1 # 100000000) + (1 # 100000) * Qabs q' < Qabs (q - q'))%Q) /\
    (forall i j x y q q', nth_error names i = Some x -> nth_error names j = Some y -> file_cost f x y q -> file_cost f y x q' -> entry m i j = ((q + q') / 2)%Q) /\
    (forall i j, i < length names -> j < length names -> (entry m i j == entry m j i)%Q)) \/
   (forall i j x y q q', nth_error names i = Some x -> nth_error names j = Some y -> file_cost f x y q -> file_cost f y x q' ->
      entry m i j = q /\ (Qabs (q - q') <= (1 # 100000000) + (1 # 100000) * Qabs q')%Q)).
Proof.
  intros H HNr HNc. destruct (cost_matrix_spec H) as (_ & Hl & Hr & c & Hc & Hcase).
  assert (Hu : forall i j x y q, nth_error names i = Some x -> nth_error names j = Some y -> file_cost f x y q -> q = c i j).
  { intros i j x y q Hx Hy (r & k & Hr1 & Hk1 & ->). destruct (Hc i j x y Hx Hy) as (r' & k' & Hr2 & Hk2 & ->).
    assert (r' = r). { apply (proj1 (NoDup_nth_error _) HNr); [apply nth_error_Some_lt in Hr2; exact Hr2|congruence]. }
    assert (k' = k). { apply (proj1 (NoDup_nth_error _) HNc); [apply nth_error_Some_lt in Hk2; exact Hk2|congruence]. }
    subst. reflexivity. }
  conj; auto.
  - intros i j x y q q' Hx Hy Hq Hq'. assert (Ei := nth_error_Some_lt _ _ Hx). assert (Ej := nth_error_Some_lt _ _ Hy).
    rewrite (Hu i j x y q), (Hu j i y x q') by auto. destruct Hcase as [Hcase|(_ & Hcase)].
    + destruct (Hcase i j Ei Ej) as (_ & ->). split; [reflexivity|auto].
    + rewrite (Hcase i j Ei Ej). split; auto. intros E. rewrite <- E. field.
  - destruct Hcase as [Hcase|((i0 & j0 & Hi0 & Hj0 & Hfar) & Hcase)].
    + right. intros i j x y q q' Hx Hy Hq Hq'. assert (Ei := nth_error_Some_lt _ _ Hx). assert (Ej := nth_error_Some_lt _ _ Hy).
      rewrite (Hu i j x y q), (Hu j i y x q') by auto. destruct (Hcase i j Ei Ej) as (Hclose & ->). split; [reflexivity|]. apply Qle_bool_iff, Hclose.
    + left. split; [|split].
      * destruct (nth_error names i0) as [x|] eqn:Hx; [|apply nth_error_None in Hx; lia]. destruct (nth_error names j0) as [y|] eqn:Hy; [|apply nth_error_None in Hy; lia].
        exists x, y, (c i0 j0), (c j0 i0). split; [eapply nth_error_In; eauto|]. split; [eapply nth_error_In; eauto|]. split; [exact (Hc i0 j0 x y Hx Hy)|]. split; [exact (Hc j0 i0 y x Hy Hx)|].
        unfold isclose in Hfar. apply Qnot_le_lt. intros L. apply Qle_bool_iff in L. congruence.
      * intros i j x y q q' Hx Hy Hq Hq'. assert (Ei := nth_error_Some_lt _ _ Hx). assert (Ej := nth_error_Some_lt _ _ Hy).
        rewrite (Hu i j x y q), (Hu j i y x q') by auto. apply Hcase; auto.
      * intros i j Hi Hj. rewrite (Hcase i j Hi Hj), (Hcase j i Hj Hi). field.
Qed.
Print Assumptions C39_costs_partial.

Definition demo_cost (q : Q) : cost_file :=
  {| cf_rows := [s_ "b"; s_ "a"]; cf_cols := [s_ "a"; s_ "b"]; cf_entry := [[q; 0]; [0; 1]]%Q |}.
Theorem C39_symmetric_refuted : exists names f m i j, read_geo_cost_matrix names f = Some m /\
  NoDup (cf_rows f) /\ NoDup (cf_cols f) /\ i < length names /\ j < length names /\ ~ (entry m i j == entry m j i)%Q.
Proof.
  exists [s_ "a"; s_ "b"], (demo_cost (1000001 # 1000000)). eexists. exists 0, 1. conj; try (vm_compute; reflexivity); simpl; try lia.
  - repeat constructor; simpl; intuition discriminate.
  - repeat constructor; simpl; intuition discriminate.
  - vm_compute. discriminate.
Qed.
Print Assumptions C39_symmetric_refuted.
Example C39_demo : exists m, read_geo_cost_matrix [s_ "a"; s_ "b"] (demo_cost 3) = Some m /\ (entry m 0 1 == 2)%Q /\ (entry m 1 0 == 2)%Q /\
  NoDup (cf_rows (demo_cost 3)) /\ NoDup (cf_cols (demo_cost 3)) /\ file_cost (demo_cost 3) (s_ "b") (s_ "a") 3.
Proof.
  eexists. conj; try (vm_compute; reflexivity).
  - simpl. repeat constructor; simpl; intuition discriminate.
  - simpl. repeat constructor; simpl; intuition discriminate.
  - exists 0, 0. conj; reflexivity.
Qed.
