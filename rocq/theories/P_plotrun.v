(** Property C97: the files that all plots of a process leave. *)
From Coq Require Import Permutation Lra.
From Verif Require Import M_plotrun S_simplex S_plot2 S_plotfiles L_text L_plot2 P_plot2 P_simplex P_dicplot L_plotrun L_plotrun2.
Close Scope R_scope.
Close Scope Q_scope.
Open Scope nat_scope.

(** The results of a run, read from its own two files. *)
Definition own (parse : str -> option Q) (read : path -> option str) (b : Q) (base : path) (run : nat * nat) (r : results) : Prop :=
  exists c s, read (clusters_of base run) = Some c /\ read (stats_of base run) = Some s /\ from_csv_files parse c s b = Some r.
Lemma own_read parse read cfg base run r : own parse read (pc_burn_in cfg) base run r <-> read_model parse cfg read (clusters_of base run, stats_of base run) = Some r.
Proof.
  unfold own, read_model. cbn [fst snd]. split; [intros (c & s & -> & -> & E); exact E|]. destruct (read (clusters_of base run)) as [c|]; [|discriminate]. cbn [obind].
  destruct (read (stats_of base run)) as [s|]; [|discriminate]. cbn [obind]. eauto.
Qed.

(** C97: the runs of a results directory, with their files listed in any order.  Whether or not the plots end with an exception,
    every file in the directory of the plots is as before, or it is the file of one plot of one run and shows the samples of this
    run, or (if all plots ended) the plot of the DIC.  If they end without exception, every plot asked for of every run is there,
    in a file of its own, and the plot of the DIC is made of the results of all runs. *)
Theorem C97_files_partial : forall delaunay parse locations names each cfg read base runs clusters stats files st ok,
  (pc_type cfg = s_ "consensus_map" -> exists q text, pc_frequency cfg = One q text) ->
  NoDup runs -> Permutation clusters (map (clusters_of base) runs) -> Permutation stats (map (stats_of base) runs) ->
  main delaunay parse locations names each cfg read clusters stats files = (st, ok) ->
  (forall n, lookup n (ps_files st) = lookup n files \/
    (exists run r k p, In run runs /\ own parse read (pc_burn_in cfg) base run r /\ requested cfg r k /\ n = file_of cfg (run_name run) k /\
       lookup n (ps_files st) = Some p /\ shows delaunay locations names cfg r k p) \/
    (ok = true /\ pc_plotted cfg (s_ "dic_plot") = true /\ n = s_ "dic." ++ pc_dic_format cfg)) /\
  (ok = true -> forall run, In run runs -> exists r, own parse read (pc_burn_in cfg) base run r /\
     forall k, requested cfg r k -> exists p, lookup (file_of cfg (run_name run) k) (ps_files st) = Some p /\ shows delaunay locations names cfg r k p) /\
  (ok = true -> pc_plotted cfg (s_ "dic_plot") = true -> exists ms fig, Permutation (map fst ms) (map run_name runs) /\
     (forall run r, In run runs -> In (run_name run, r) ms -> own parse read (pc_burn_in cfg) base run r) /\
     plot_dic (pc_dic_models cfg) (pc_dic_burn_in cfg) (pc_dic_labels cfg) (s_ "dic") (pc_dic_format cfg) ms = Some fig /\
     lookup (s_ "dic." ++ pc_dic_format cfg) (ps_files st) = Some (PDic fig)).
Proof.
  intros delaunay parse locations names each cfg read base runs clusters stats files st ok Hone Hn Hc Hs H.
  destruct (C82_runs base runs clusters stats Hn Hc Hs) as (runs' & Hp & Em & Ed). fold run_name in Em.
  set (nm := fun r : nat * nat => (run_name r, (clusters_of base r, stats_of base r))). change (models clusters stats = map nm runs') in Em.
  unfold main in H. rewrite Em in H. unfold andthen at 1 in H.
  destruct (model_actions delaunay parse locations names each cfg read (map nm runs') _) as [s1 o1] eqn:E1.
  set (P := fun n p => exists run r k, In run runs /\ own parse read (pc_burn_in cfg) base run r /\ requested cfg r k /\ n = file_of cfg (run_name run) k /\ shows delaunay locations names cfg r k p).
  assert (HP : forall m cs r k p, In (m, cs) (map nm runs') -> read_model parse cfg read cs = Some r -> requested cfg r k -> shows delaunay locations names cfg r k p -> P (file_of cfg m k) p).
  { intros m cs r k p I Er Hk Hsh. apply in_map_iff in I as (run & [= <- <-] & I). exists run, r, k. conj; auto; [eapply Permutation_in; eauto|]. apply own_read. exact Er. }
  pose proof (loop_does (each := each) Hone HP) as Loop. specialize (Loop {| ps_files := files; ps_cache := new_cache; ps_results := [] |} s1 o1 good_new E1). destruct Loop as [C F]. cbn [ps_files ps_results] in C, F.
  assert (Safe1 : forall n, lookup n (ps_files s1) = lookup n files \/ exists run r k p, In run runs /\ own parse read (pc_burn_in cfg) base run r /\ requested cfg r k /\ n = file_of cfg (run_name run) k /\
       lookup n (ps_files s1) = Some p /\ shows delaunay locations names cfg r k p).
  { intros n. destruct (C n) as [X|(_ & p & X & run & r & k & A & B & D & -> & E)]; auto. right. exists run, r, k, p. repeat (split; auto). }
  assert (Hdic : o1 = true -> forall st2 ok2, when (pc_plotted cfg (s_ "dic_plot")) (dic_action cfg) s1 = (st2, ok2) ->
    (forall n, lookup n (ps_files st2) = lookup n (ps_files s1) \/ (ok2 = true /\ pc_plotted cfg (s_ "dic_plot") = true /\ n = s_ "dic." ++ pc_dic_format cfg)) /\
    (ok2 = true -> pc_plotted cfg (s_ "dic_plot") = true -> exists ms fig, Permutation (map fst ms) (map run_name runs) /\
     (forall run r, In run runs -> In (run_name run, r) ms -> own parse read (pc_burn_in cfg) base run r) /\
     plot_dic (pc_dic_models cfg) (pc_dic_burn_in cfg) (pc_dic_labels cfg) (s_ "dic") (pc_dic_format cfg) ms = Some fig /\
     lookup (s_ "dic." ++ pc_dic_format cfg) (ps_files st2) = Some (PDic fig))).
  { intros O st2 ok2 E2. unfold when in E2. destruct (pc_plotted cfg (s_ "dic_plot")); [|injection E2 as <- <-; split; [auto|discriminate]].
    unfold dic_action in E2. destruct (plot_dic _ _ _ _ _ _) as [fig|] eqn:Ef; [|injection E2 as <- <-; split; [auto|discriminate]].
    assert (Efile : df_file fig = s_ "dic." ++ pc_dic_format cfg).
    { unfold plot_dic in Ef. destruct (match pc_dic_models cfg with [] => _ | _ => _ end); [|discriminate]. cbn [obind] in Ef. destruct (all_opt _) as [[|y0 ys]|]; [discriminate| |discriminate]. cbn [obind] in Ef. injection Ef as <-. reflexivity. }
    rewrite Efile in E2. unfold save in E2. destruct (existsb _ _); injection E2 as <- <-; [split; [auto|discriminate]|]. cbn [ps_files]. split.
    - intros n. rewrite lookup_set. destruct (str_eqb n _) eqn:Es; auto. apply str_eqb_eq in Es. right. auto.
    - intros _ _. destruct (F O) as [_ (rs & G1 & G2)]. exists (ps_results s1), fig. rewrite lookup_set, str_eqb_refl.
      assert (En : map fst rs = map run_name runs'). { clear - G1. revert rs G1. induction runs' as [|x l IH]; intros rs G; inversion G; subst; auto. cbn [map]. f_equal; [symmetry; apply H1|auto]. }
      assert (Er : ps_results s1 = rs).
      { rewrite G2. apply results_nodup. rewrite En. replace (map run_name runs') with (map fst (models clusters stats)) by (rewrite Em, map_map; reflexivity). rewrite <- Ed. apply results_spec. }
      rewrite Er in *. conj; auto.
      + rewrite En. apply Permutation_map. exact Hp.
      + intros run r I J. apply own_read. clear - G1 I J Hp En. assert (I' : In run runs') by (eapply Permutation_in; [apply Permutation_sym; exact Hp|exact I]). clear I Hp En.
        assert (K : exists run', In run' runs' /\ run_name run = run_name run' /\ read_model parse cfg read (clusters_of base run', stats_of base run') = Some r).
        { clear I'. revert rs G1 J. induction runs' as [|x l IH]; intros rs G J; inversion G; subst; [destruct J|]. destruct J as [E|J].
          - subst y. exists x. destruct H1 as [A B]. simpl in *. auto.
          - destruct (IH _ H3 J) as (run' & A & B). exists run'. simpl. auto. }
        destruct K as (run' & _ & E & K). assert (E' : run_name run ++ "_"%char :: [] = run_name run' ++ "_"%char :: []) by congruence. apply (run_name_app us_digit) in E' as [-> _]. exact K. }
  destruct o1; [|injection H as <- <-; conj; try discriminate; intros n; destruct (Safe1 n); auto].
  destruct (Hdic eq_refl st ok H) as [D1 D2]. conj; auto.
  - intros n. destruct (D1 n) as [X|X]; auto. rewrite X. destruct (Safe1 n); auto.
  - intros O run I. destruct (F eq_refl) as [F1 (rs & G1 & _)].
    assert (I' : In run runs') by (eapply Permutation_in; [apply Permutation_sym; exact Hp|exact I]).
    assert (K : exists r, read_model parse cfg read (clusters_of base run, stats_of base run) = Some r).
    { clear - G1 I'. revert rs G1. induction runs' as [|x l IH]; intros rs G; [destruct I'|]. inversion G; subst. destruct I' as [->|I']; [exists (snd y); apply H1|eauto]. }
    destruct K as (r & K). exists r. split; [apply own_read; exact K|]. intros k Hk.
    destruct (F1 (run_name run) (clusters_of base run, stats_of base run) r k) as (p & L & run2 & r2 & k2 & A1 & A2 & A3 & A4 & A5); auto.
    { change (In (nm run) (map nm runs')). apply in_map. exact I'. }
    apply file_of_inj in A4 as [<- <-]. apply own_read in A2. assert (r2 = r) by congruence. subst r2. exists p. split; auto.
    destruct (D1 (file_of cfg (run_name run) k)) as [X|(_ & _ & X)]; [congruence|]. exfalso. apply (@dic_other cfg run k (pc_dic_format cfg)). rewrite X. reflexivity.
Qed.
Print Assumptions C97_files_partial.

(** A case: two runs of the same samples, one cluster of the first two of three objects; map, preferences, pie charts and DIC. *)
Definition lines (ls : list (list string)) : str := concat (map (fun l => join [tab] (map s_ l) ++ [newline]) ls).
Definition demo_stats (group : string) : str := lines
  [["Sample"; "posterior"; "likelihood"; "prior"; "w_areal_F"; "w_fam_F"; "areal_a1_F_x"; "areal_a1_F_y"; "fam_" ++ group ++ "_F_x"; "fam_" ++ group ++ "_F_y"];
   ["0"; "1"; "1"; "1"; "1"; "1"; "1"; "1"; "1"; "1"]; ["1"; "1"; "1"; "1"; "1"; "1"; "1"; "1"; "1"; "1"]]%string.
Definition demo_read (group : string) (p : path) : option str :=
  Some (if startswith (s_ "clusters") (last p []) then lines [["110"]; ["110"]]%string else demo_stats group).
Definition demo_config (plotted : list string) (f : frequency) (type : string) : plot_config := {|
  pc_plotted := fun x => existsb (fun y => str_eqb x (s_ y)) plotted;
  pc_type := s_ type; pc_frequency := f; pc_burn_in := 0; pc_map_format := s_ "pdf";
  pc_weight_features := []; pc_weight_names := None; pc_weight_cols := 2; pc_weight_format := s_ "pdf";
  pc_pref_add := true; pc_pref_which := []; pc_pref_cols := 2; pc_pref_format := s_ "pdf";
  pc_pie_burn_in := 0; pc_pie_cols := 2; pc_pie_format := s_ "pdf";
  pc_feature := None; pc_feature_add := false; pc_feature_names := None;
  pc_dic_models := []; pc_dic_burn_in := 0; pc_dic_labels := []; pc_dic_format := s_ "pdf" |}.
Definition demo_main (group : string) (plotted : list string) (f : frequency) (type : string) (base : path) (runs : list (nat * nat)) : plot_state * bool :=
  main (fun l => map (fun _ => map (fun _ => true) l) l) (fun _ => Some (1 # 2)%Q) [(0, 0); (1, 0); (0, 1)]%Q (map s_ ["A"; "B"; "C"]%string) (fun _ _ => None)
    (demo_config plotted f type) (demo_read group) (map (clusters_of base) runs) (map (stats_of base) runs) [(s_ "notes.txt", PMap [])].
Definition most : list string := ["map"; "preference_plot"; "pie_plot"; "dic_plot"]%string.
Example C97_files_case : snd (demo_main "g" most (One (1 # 2) (s_ "0.5")) "consensus_map" [s_ "r"] [(2, 0); (1, 0)]) = true /\
  map fst (ps_files (fst (demo_main "g" most (One (1 # 2) (s_ "0.5")) "consensus_map" [s_ "r"] [(2, 0); (1, 0)]))) =
  map s_ ["notes.txt"; "posterior_map_K1_0_0.5.pdf"; "prob_grid_K1_0_a1.pdf"; "prob_grid_K1_0_fam_g.pdf"; "plot_pies_K1_0.pdf";
          "posterior_map_K2_0_0.5.pdf"; "prob_grid_K2_0_a1.pdf"; "prob_grid_K2_0_fam_g.pdf"; "plot_pies_K2_0.pdf"; "dic.pdf"]%string.
Proof. split; vm_compute; reflexivity. Qed.

(** C97, together: the runs of a results directory can be plotted together if and only if each could be plotted alone (into any
    directory); neither the corners kept in memory nor the files of the other plots make a difference. *)
Theorem C97_together : forall delaunay parse locations names each cfg read base runs clusters stats files, NoDup runs -> pc_plotted cfg (s_ "dic_plot") = false ->
  Permutation clusters (map (clusters_of base) runs) -> Permutation stats (map (stats_of base) runs) ->
  (snd (main delaunay parse locations names each cfg read clusters stats files) = true <->
   forall run files', In run runs -> snd (main delaunay parse locations names each cfg read [clusters_of base run] [stats_of base run] files') = true).
Proof.
  intros delaunay parse locations names each cfg read base runs clusters stats files Hn Hd Hc Hs.
  set (nm := fun r : nat * nat => (run_name r, (clusters_of base r, stats_of base r))).
  assert (Hmain : forall cl sl fs, snd (main delaunay parse locations names each cfg read cl sl fs) =
    snd (model_actions delaunay parse locations names each cfg read (models cl sl) {| ps_files := fs; ps_cache := new_cache; ps_results := [] |})).
  { intros cl sl fs. unfold main. rewrite Hd. unfold andthen, when, skip. destruct (model_actions _ _ _ _ _ _ _ _ _) as [s o]. destruct o; reflexivity. }
  assert (Hall : forall rs cl sl, NoDup rs -> Permutation cl (map (clusters_of base) rs) -> Permutation sl (map (stats_of base) rs) -> exists rs', Permutation rs' rs /\ models cl sl = map nm rs').
  { intros rs cl sl A B C. destruct (C82_runs base rs cl sl A B C) as (rs' & D & E & _). exists rs'. auto. }
  assert (Hone : forall run, models [clusters_of base run] [stats_of base run] = [nm run]).
  { intros run. destruct (Hall [run] [clusters_of base run] [stats_of base run]) as (rs' & D & E); [repeat constructor; simpl; tauto|apply Permutation_refl|apply Permutation_refl|].
    apply Permutation_sym, Permutation_length_1_inv in D. subst rs'. exact E. }
  destruct (Hall runs clusters stats Hn Hc Hs) as (runs' & Hp & Em). rewrite Hmain, Em.
  rewrite (actions_each delaunay parse locations names each cfg read (map nm runs') (st := {| ps_files := files; ps_cache := new_cache; ps_results := [] |})) by apply fine_new.
  split.
  - intros H run files' I. rewrite Hmain, Hone. apply H; [|apply fine_new]. apply in_map. eapply Permutation_in; [apply Permutation_sym; exact Hp|exact I].
  - intros H e I st' Hf. apply in_map_iff in I as (run & <- & I). specialize (H run [] (Permutation_in _ Hp I)). rewrite Hmain, Hone in H. rewrite <- H. apply steady_actions; auto. apply fine_new.
Qed.
Print Assumptions C97_together.
Example C97_together_case : NoDup [(2, 0); (1, 0)] /\ snd (demo_main "g" ["map"; "preference_plot"]%string (One (1 # 2) (s_ "0.5")) "density_map" [s_ "r"] [(2, 0); (1, 0)]) = true /\
  snd (demo_main "g" ["map"; "preference_plot"]%string (One (1 # 2) (s_ "0.5")) "density_map" [s_ "r"] [(2, 0)]) = true.
Proof. split; [repeat constructor; simpl; intuition discriminate|]. split; vm_compute; reflexivity. Qed.

(** Not so for several frequencies, which the code means to plot one after the other: unless they are as many as the objects
    (or one), there is an exception before the first map, and nothing is plotted. *)
Theorem C97_frequencies_refuted :
  (forall delaunay parse locations names each cfg read clusters stats files st ok ts text,
    pc_type cfg = s_ "consensus_map" -> pc_frequency cfg = Several ts text -> pc_plotted cfg (s_ "map") = true ->
    length ts <> 1 -> length ts <> length locations -> clusters <> [] -> stats <> [] ->
    main delaunay parse locations names each cfg read clusters stats files = (st, ok) -> ok = false /\ ps_files st = files) /\
  snd (demo_main "g" ["map"]%string (Several [1 # 2; 3 # 4]%Q (s_ "(0.5, 0.75)")) "consensus_map" [s_ "r"] [(1, 0)]) = false /\
  snd (demo_main "g" ["map"]%string (One (1 # 2) (s_ "0.5")) "consensus_map" [s_ "r"] [(1, 0)]) = true.
Proof.
  split; [|split; vm_compute; reflexivity].
  intros delaunay parse locations names each cfg read clusters stats files st ok ts text Ht Hf Hm L1 L2 Hc Hs H. unfold main in H.
  assert (Hne : exists m cs ms, models clusters stats = (m, cs) :: ms).
  { assert (Ls : forall l, length (sort_paths l) = length l).
    { intros l. unfold sort_paths. assert (I : forall p l, length (insert_path p l) = S (length l)) by (clear; induction l as [|q l IH]; simpl; auto; destruct (path_cmp p q); simpl; auto).
      induction l as [|a l IH]; simpl; auto. rewrite I. auto. }
    unfold models. assert (A := Ls clusters). assert (B := Ls stats). destruct (sort_paths clusters) as [|c cl]; [destruct clusters; [congruence|discriminate]|].
    destruct (sort_paths stats) as [|s sl]; [destruct stats; [congruence|discriminate]|]. cbn [combine map]. eauto. }
  destruct Hne as (m & cs & ms & E). rewrite E in H. unfold andthen at 1 in H. cbn [model_actions] in H. destruct (read_model parse cfg read cs) as [r|]; [|injection H as <- <-; auto].
  unfold andthen at 1 in H. unfold model_action in H. unfold andthen at 1 in H. unfold remember in H. cbn [ps_files ps_cache ps_results] in H.
  unfold andthen at 1 in H. rewrite Hm in H. cbn [when] in H. unfold plot_map in H. rewrite Ht, Hf in H.
  replace (graphs_with delaunay locations each cfg (Several ts text) r) with (@None (list graph)) in H.
  { cbn in H. injection H as <- <-. auto. }
  unfold graphs_with. destruct (Nat.eqb_spec (length ts) (length locations)); [congruence|]. destruct ts as [|t [|t' ts]]; auto. simpl in L1. congruence.
Qed.
Print Assumptions C97_frequencies_refuted.

(** Not so: the names of groups have no influence.  A slash in the name of a group (here of the last of two, with everything else
    as in the case above) ends the plots of all runs, after the first component. *)
Theorem C97_slash_refuted : exists run, run = (1, 0) /\
  snd (demo_main "g/h" most (One (1 # 2) (s_ "0.5")) "consensus_map" [s_ "r"] [(2, 0); (1, 0)]) = false /\
  map fst (ps_files (fst (demo_main "g/h" most (One (1 # 2) (s_ "0.5")) "consensus_map" [s_ "r"] [(2, 0); (1, 0)]))) =
  map s_ ["notes.txt"; "posterior_map_K1_0_0.5.pdf"; "prob_grid_K1_0_a1.pdf"]%string.
Proof. exists (1, 0). split; [reflexivity|]. split; vm_compute; reflexivity. Qed.
Print Assumptions C97_slash_refuted.

(** Not so for the runs of two experiments: runs of the same name have the same files; only the last one's plots remain. *)
Definition two_read (p : path) : option str :=
  Some (if startswith (s_ "clusters") (last p []) then (if str_eqb (hd [] p) (s_ "a") then lines [["110"]; ["110"]]%string else lines [["011"]; ["011"]]%string) else demo_stats "g").
Theorem C97_experiments_refuted : exists cfg st r g,
  main (fun l => map (fun _ => map (fun _ => true) l) l) (fun _ => Some (1 # 2)%Q) [(0, 0); (1, 0); (0, 1)]%Q (map s_ ["A"; "B"; "C"]%string) (fun _ _ => None) cfg two_read
    [clusters_of [s_ "a"] (1, 0); clusters_of [s_ "b"] (1, 0)] [stats_of [s_ "a"] (1, 0); stats_of [s_ "b"] (1, 0)] [] = (st, true) /\
  own (fun _ => Some (1 # 2)%Q) two_read (pc_burn_in cfg) [s_ "a"] (1, 0) r /\ requested cfg r KMap /\
  Forall2 (fun c g => clusters_to_graph (fun l => map (fun _ => map (fun _ => true) l) l) (Consensus (1 # 2)) 0 [(0, 0); (1, 0); (0, 1)]%Q c = Some g) (r_clusters r) [g] /\
  (exists n gs, In (n, PMap gs) (ps_files st)) /\ forall n gs, In (n, PMap gs) (ps_files st) -> gs <> [g].
Proof.
  set (cfg := demo_config ["map"]%string (One (1 # 2) (s_ "0.5")) "consensus_map").
  set (r := match from_csv_files (fun _ => Some (1 # 2)%Q) (lines [["110"]; ["110"]]%string) (demo_stats "g") 0 with Some r => r | None => results_or 0 ten end).
  exists cfg. eexists. exists r. eexists. split; [reflexivity|]. split.
  { exists (lines [["110"]; ["110"]]%string), (demo_stats "g"). conj; vm_compute; reflexivity. }
  split; [reflexivity|]. split.
  { assert (Er : r_clusters r = [[[true; true; false]; [true; true; false]]]) by (vm_compute; reflexivity). rewrite Er. constructor; [vm_compute; reflexivity|constructor]. }
  split; [do 2 eexists; left; reflexivity|]. intros n gs [E|[]]. apply (f_equal snd) in E. cbn [snd] in E. injection E as <-. vm_compute. intros E. discriminate E.
Qed.
Print Assumptions C97_experiments_refuted.
