(** Property C82: which files of the samples the plots read for each model. *)
From Coq Require Import Permutation.
From Verif Require Import M_plot2 S_plot2 L_text L_data L_config L_plot2.
Close Scope Q_scope.
Open Scope nat_scope.

(** The cluster files and the parameter files of some models, listed in any order: every model is plotted once, under its
    own name, from its own two files, if no model's directory has models in subdirectories with names from 'c' to 's'. *)
Theorem C82_pairing_partial : forall ms clusters stats, well_placed ms ->
  Permutation clusters (map clusters_txt ms) -> Permutation stats (map stats_txt ms) ->
  exists ms', Permutation ms' ms /\ models clusters stats = map (fun m => (snd m, (clusters_txt m, stats_txt m))) ms'.
Proof.
  intros ms clusters stats Hw Hc Hs. destruct (@pairing _ clusters_txt stats_txt ms clusters stats Hc Hs) as (ms' & Hp & E).
  { intros (d & x) (d' & y) Hp Hq. unfold clusters_txt, stats_txt. cbn [fst snd]. apply names_cmp; [exact (Hw _ _ Hp Hq)|exact (Hw _ _ Hq Hp)]. }
  exists ms'. conj; auto. unfold models. rewrite E, map_map. apply map_ext. intros (d & x). f_equal.
  unfold clusters_txt. cbn [fst snd]. apply (@name_of d (s_ "clusters") x). vm_compute. intuition discriminate.
Qed.
Print Assumptions C82_pairing_partial.
(** Two directories, three models. *)
Definition demo_models : list model := [([s_ "a"; s_ "K2"], s_ "K2_0"); ([s_ "a"], s_ "x.y_z"); ([s_ "a"; s_ "K2"], s_ "K2_1")].
Example C82_pairing_case : well_placed demo_models /\
  map fst (models (map clusters_txt demo_models) (rev (map stats_txt demo_models))) = [s_ "K2_0"; s_ "K2_1"; s_ "x.y_z"].
Proof.
  conj; [|vm_compute; reflexivity]. intros m m' H H' k e E c r ->.
  destruct H as [<-|[<-|[<-|[]]]]; destruct H' as [<-|[<-|[<-|[]]]]; cbn [fst app] in E; try discriminate E;
    injection E as E1; subst; left; reflexivity.
Qed.

(** What remains of the models for the plot of the DIC: for every name the last model with it. *)
Theorem C82_results : forall clusters stats, NoDup (map fst (results_dict (models clusters stats))) /\
  (forall name files, In (name, files) (results_dict (models clusters stats)) <-> last_entry (models clusters stats) name files).
Proof. intros clusters stats. apply results_spec. Qed.
Print Assumptions C82_results.

(** Hence all runs that the program writes below one results directory (C42) are plotted, each under the name
    K<clusters>_<run> and from its own files, and all results are kept. *)
Lemma run_files base r : clusters_of base r = clusters_txt (base ++ [run_dir (fst r)], s_ "K" ++ str_nat (fst r) ++ s_ "_" ++ str_nat (snd r)) /\
  stats_of base r = stats_txt (base ++ [run_dir (fst r)], s_ "K" ++ str_nat (fst r) ++ s_ "_" ++ str_nat (snd r)).
Proof.
  destruct r as (k & i). unfold clusters_of, stats_of, clusters_txt, stats_txt, file_path, suffix. cbn [fst snd]. rewrite <- !app_assoc. split; reflexivity.
Qed.
Theorem C82_runs : forall base runs clusters stats, NoDup runs ->
  Permutation clusters (map (clusters_of base) runs) -> Permutation stats (map (stats_of base) runs) ->
  exists runs', Permutation runs' runs /\
    models clusters stats = map (fun r => (s_ "K" ++ str_nat (fst r) ++ s_ "_" ++ str_nat (snd r), (clusters_of base r, stats_of base r))) runs' /\
    results_dict (models clusters stats) = models clusters stats.
Proof.
  intros base runs clusters stats Hn Hc Hs. set (nm := fun r : nat * nat => s_ "K" ++ str_nat (fst r) ++ s_ "_" ++ str_nat (snd r)).
  destruct (@pairing _ (clusters_of base) (stats_of base) runs clusters stats Hc Hs) as (runs' & Hp & E).
  { intros r r' _ _. destruct (run_files base r) as [-> ->], (run_files base r') as [-> ->]. apply names_cmp; cbn [fst]; intros k e E;
      apply (f_equal (@length _)) in E; rewrite !app_length in E; cbn [length] in E; lia. }
  exists runs'. conj; auto.
  - unfold models. rewrite E, map_map. apply map_ext. intros r. f_equal. rewrite (proj1 (run_files base r)). unfold clusters_txt.
    apply (@name_of (base ++ [run_dir (fst r)]) (s_ "clusters") (nm r)). vm_compute. intuition discriminate.
  - apply results_nodup. assert (En : map fst (models clusters stats) = map nm runs').
    { unfold models. rewrite E, !map_map. apply map_ext. intros r. cbn [fst]. rewrite (proj1 (run_files base r)). unfold clusters_txt.
      apply (@name_of (base ++ [run_dir (fst r)]) (s_ "clusters") (nm r)). vm_compute. intuition discriminate. }
    rewrite En. apply (Permutation_NoDup (Permutation_sym Hp)) in Hn. clear - Hn. apply FinFun.Injective_map_NoDup; auto.
    intros (k & i) (k' & i') E. unfold nm in E. cbn [fst snd] in E. apply app_inv_head in E.
    apply (@cut_inj "_"%char) in E; [|apply str_nat_no; vm_compute; intuition discriminate|apply str_nat_no; vm_compute; intuition discriminate].
    destruct E as [E1 E2]. apply str_nat_inj in E1, E2. congruence.
Qed.
Print Assumptions C82_runs.
Example C82_runs_case : exists a b c, models (map (clusters_of [s_ "results"]) [(10, 0); (2, 0); (2, 1)]) (map (stats_of [s_ "results"]) [(2, 1); (10, 0); (2, 0)]) =
  [(s_ "K10_0", a); (s_ "K2_0", b); (s_ "K2_1", c)] /\ snd b = stats_of [s_ "results"] (2, 0).
Proof. do 3 eexists. conj; vm_compute; reflexivity. Qed.

(** Not in general: with models in a subdirectory whose name is between the names of the files, the models are plotted from
    each other's parameters; likewise if a file is missing; and models with the same name in different directories (two
    experiments) replace each other in the results (and write to the same plot files). *)
Theorem C82_nested_refuted : exists ms : list model, NoDup ms /\ forall name c s,
  In (name, (c, s)) (models (map clusters_txt ms) (map stats_txt ms)) -> exists m, In m ms /\ name = snd m /\ c = clusters_txt m /\ s <> stats_txt m.
Proof.
  exists [([s_ "results"], s_ "a"); ([s_ "results"; s_ "experiment2"], s_ "b")]. conj.
  - repeat constructor; simpl; intuition discriminate.
  - intros name c s H. vm_compute in H. destruct H as [H|[H|[]]]; injection H as <- <- <-; [exists ([s_ "results"], s_ "a")|exists ([s_ "results"; s_ "experiment2"], s_ "b")];
      (conj; [vm_compute; auto|reflexivity|reflexivity|vm_compute; discriminate]).
Qed.
Print Assumptions C82_nested_refuted.
Theorem C82_missing_refuted : exists base runs missing, NoDup runs /\ In missing runs /\
  let stats := map (stats_of base) (filter (fun r => negb ((fst r =? fst missing) && (snd r =? snd missing))) runs) in
  exists name r r', In (name, (clusters_of base r, stats_of base r')) (models (map (clusters_of base) runs) stats) /\ r <> r'.
Proof.
  exists [s_ "results"], [(2, 0); (2, 1)], (2, 0). conj; [repeat constructor; simpl; intuition discriminate|left; reflexivity|].
  cbv zeta. exists (s_ "K2_0"), (2, 0), (2, 1). conj; [vm_compute; auto|discriminate].
Qed.
Print Assumptions C82_missing_refuted.
Theorem C82_same_names_refuted : exists ms : list model, NoDup ms /\ well_placed ms /\
  exists m, In m ms /\ forall name s, ~ In (name, (clusters_txt m, s)) (results_dict (models (map clusters_txt ms) (map stats_txt ms))).
Proof.
  exists [([s_ "e1"; s_ "K2"], s_ "K2_0"); ([s_ "e2"; s_ "K2"], s_ "K2_0")]. conj.
  - repeat constructor; simpl; intuition discriminate.
  - intros m m' H H' k e E. destruct H as [<-|[<-|[]]]; destruct H' as [<-|[<-|[]]]; discriminate E.
  - exists ([s_ "e1"; s_ "K2"], s_ "K2_0"). conj; [left; reflexivity|]. intros name s H. vm_compute in H. destruct H as [H|[]]. discriminate H.
Qed.
Print Assumptions C82_same_names_refuted.
