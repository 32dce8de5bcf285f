(** From the samples of a run to the plots: the clusters are logged, read back and plotted. *)
From Verif Require Export M_plot.
Set Implicit Arguments.
Unset Strict Implicit.
Close Scope Q_scope.
Open Scope nat_scope.

(** loggers.py:217-252 (ClustersLogger, one [write_sample] per sample), results.py:150-178 ([read_clusters]): the clusters
    that are read from the file written during the run; [disk]: the content of the file before the run. *)
Definition logged_clusters (disk : option (list str)) (samples : list lsample) : option (list bmat) :=
  match run_log clusters_header clusters_row (map Write samples) (new_logger disk clusters_init) with
  | Some lg => match lg_disk lg with Some content => read_clusters (concat content) | None => None end
  | None => None
  end.
(** plot.py:227-241, 1690-1785 -- the pie charts of a run. *)
Definition pies_of_run (map_burn_in pie_burn_in : Q) (n_col : nat) (names : list str) (disk : option (list str)) (samples : list lsample) : option (list pie) :=
  match logged_clusters disk samples with Some res => pies_of map_burn_in pie_burn_in n_col names res | None => None end.
(** plot.py:227-241, 345-405, 493-501 -- the graphs of the density map of a run. *)
Definition density_of_run (delaunay : list point -> list (list bool)) (burn_in : Q) (locations : list point) (disk : option (list str)) (samples : list lsample) :
    option (list (list bool * list (nat * nat * option Q))) :=
  match logged_clusters disk samples with Some res => map_graphs delaunay Density burn_in locations res | None => None end.
