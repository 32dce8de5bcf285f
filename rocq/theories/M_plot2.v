(** Model of the rest of plot.py's computations: the files of the models, the table of labels, the legend of
    likelihoods, the selection of plots, broken labels. *)
From Coq Require Export QArith.
From Verif Require Export M_model M_text M_data M_post M_config M_plot.
Set Implicit Arguments.
Unset Strict Implicit.
Close Scope Q_scope.
Open Scope nat_scope.

(** * Files of the models *)
(** Paths (pathlib) are lists of parts ([path], M_config); the last part is the name of the file. *)
(** The order of paths in [sorted] (plot.py:228-229): by parts (lists of strings), a prefix comes first. *)
Fixpoint path_cmp (a b : path) : comparison :=
  match a, b with
  | [], [] => Eq
  | [], _ => Lt
  | _, [] => Gt
  | x :: a, y :: b => match str_cmp x y with Eq => path_cmp a b | c => c end
  end.
Fixpoint insert_path (p : path) (l : list path) : list path :=
  match l with [] => [p] | q :: r => match path_cmp p q with Gt => q :: insert_path p r | _ => p :: q :: r end end.
(** plot.py:228-229 -- [sorted(paths)] *)
Definition sort_paths (l : list path) : list path := fold_right insert_path [] l.
(** [clusters_path.stem] (plot.py:230): the name of the file without its last suffix, if this is neither all of the name
    nor empty. *)
Definition dot : ascii := ".".
Fixpoint last_dot (l : str) (i : nat) (found : option nat) : option nat :=
  match l with [] => found | x :: r => last_dot r (S i) (if ascii_dec x dot then Some i else found) end.
Definition stem (p : path) : str :=
  let name := last p [] in
  match last_dot name 0 None with
  | Some i => if (0 <? i) && (i <? length name - 1) then firstn i name else name
  | None => name
  end.
(** plot.py:230 -- [stem.partition('_')[2]]: empty without underscore. *)
Definition model_name (p : path) : str := match cut underscore (stem p) with Some (_, b) => b | None => [] end.
(** plot.py:227-241 -- the models in the order of the loop: name, cluster file, file of parameters. *)
Definition models (clusters stats : list path) : list (str * (path * path)) :=
  map (fun '(c, s) => (model_name c, (c, s))) (combine (sort_paths clusters) (sort_paths stats)).
(** plot.py:238 -- [self.results[model_name] = results]: what [plot_dic] gets. *)
Definition set_key {A} (k : str) (v : A) (d : list (str * A)) : list (str * A) :=
  if existsb (fun e => str_eqb k (fst e)) d then map (fun e => if str_eqb k (fst e) then (fst e, v) else e) d else d ++ [(k, v)].
Definition results_dict {A} (ms : list (str * A)) : list (str * A) := fold_left (fun d m => set_key (fst m) (snd m) d) ms [].
(** mcmc_setup.py:102-109, plot.py:227-241 -- the files of a run (number of clusters, number of the run) below a results
    directory. *)
Definition clusters_of (base : path) (r : nat * nat) : path := base ++ file_path [] (fst r) (snd r) FClusters.
Definition stats_of (base : path) (r : nat * nat) : path := base ++ file_path [] (fst r) (snd r) FStats.

(** * The table of objects (plot.py:794-866) *)
(** plot.py:807-822 -- one entry per cluster that has the object, or one black entry if [show_all]; an entry: the number of the
    object, its name, the cluster whose colour it gets. *)
Definition table_sites (show_all : bool) (names : list str) (cluster_labels : list (list nat)) : list (nat * str * option nat) :=
  flat_map (fun '(o, name) =>
    match filter (fun c => existsb (Nat.eqb o) (nth c cluster_labels [])) (seq 0 (length cluster_labels)) with
    | [] => if show_all then [(o, name, None)] else []
    | cs => map (fun c => (o, name, Some c)) cs
    end) (combine (seq 0 (length names)) names).
(** plot.py:824-847 -- the cells of the table (text and colour): rows of number, name, number, name, ...; [None]: no
    columns (division by zero) or no sites ([table_fill[0]], line 849).  A number [n] is the string [str(n)], an empty cell
    the empty string.  The colour of the text is only used with 'color_labels' (857-861). *)
Inductive cell := Number (n : nat) (colour : option nat) | Name (s : str) (colour : option nat) | Empty.
Definition correspondence (n_col : nat) (sites : list (nat * str * option nat)) : option (list (list cell)) :=
  if n_col =? 0 then None else
  let n_row := ceil_div (length sites) n_col in
  if n_row =? 0 then None else
  let filled := fold_left (fun t '(i, (o, name, c)) => upd (i mod n_row) (fun r => r ++ [Number (o + 1) c; Name name c]) t)
                  (combine (seq 0 (length sites)) sites) (repeat [] n_row) in
  Some (map (fun r => r ++ repeat Empty (n_col * 2 - length r)) filled).
(** plot.py:434-458 -- [add_labels]: the numbers written on the map, with their colours; [only]: the setting 'labels' is
    'in_cluster'. *)
Definition map_labels (only : bool) (c : map_type) (n : nat) (cluster_labels : list (list nat)) : list (nat * option nat) :=
  flat_map (fun i =>
    let '(colour, in_cluster) := fold_left (fun '(colour, found) j =>
        if existsb (Nat.eqb i) (nth j cluster_labels []) then (match c with Consensus _ => Some j | Density => colour end, true) else (colour, found))
      (seq 0 (length cluster_labels)) (None, false) in
    if only && negb in_cluster then [] else [(i + 1, colour)]) (seq 0 n).
(** plot.py:529 -- [list(compress(self.objects.indices, in_cluster))] for every cluster *)
Definition labels_of (n : nat) (graphs : list (list bool * list (nat * nat * option Q))) : list (list nat) :=
  map (fun g => filter (fun o => nth o (fst g) false) (seq 0 n)) graphs.
(** plot.py:938-944 -- the table of a map, if it is drawn; languages are labelled and the table requested. *)
Definition map_table (show_all : bool) (n_col : nat) (c : map_type) (names : list str) (cluster_labels : list (list nat)) : option (option (list (list cell))) :=
  let labels := match c with Density => [seq 0 (length names)] | Consensus _ => cluster_labels end in
  if existsb (fun l => negb (length l =? 0)) labels then option_map Some (correspondence n_col (table_sites show_all names labels)) else Some None.

(** * The legend of likelihoods *)
(** plot.py:706-722 -- the values in the legend, next to the lines of the clusters in the order of the clusters
    (visualize_clusters, 467-541): label [i] belongs to the line of cluster [i].  Shown as [int(lh)].  [None]: no
    clusters ([np.mean] over a missing axis) or no samples ([int] of NaN). *)
Definition legend_values (lh_per_cluster : list (list Q)) : option (list Q) :=
  if existsb (fun c => length c =? 0) lh_per_cluster || (length lh_per_cluster =? 0) then None else
  let to_rank := map mean_q lh_per_cluster in
  Some (map (fun i => nth i to_rank 0%Q) (argsort (map Qopp to_rank))).

(** * Selection of plots *)
(** plot.py:1787-1797 -- the values of [PlotType] *)
Definition plot_types : list str := map s_ ["map"; "weights_plot"; "preference_plot"; "pie_plot"; "feature_plot"; "dic_plot"]%string.
(** plot.py:102-111, 1800-1815 -- [should_be_plotted]: a key of the configuration after the defaults are set, and
    requested ([None]: all types). *)
Definition should_be_plotted {T} (config default : dict T) (requested : option (list str)) (t : str) : bool :=
  match M_config.get t (set_defaults config default) with
  | Some _ => match requested with None => true | Some l => existsb (str_eqb t) l end
  | None => false
  end.
(** config/default_config_plot.json -- its keys *)
Definition default_keys : list str := map s_ ["results"; "data"; "map"; "weight_plot"; "preference_plot"; "feature_plot"; "dic_plot"; "pie_plot"]%string.

(** * Broken labels *)
(** plot.py:1240-1245 -- [plot_preference] keeps the character at which it breaks; compare [break_label] (1753-1761). *)
Definition break_label_keep (l : str) : str :=
  match white_or_dash l with
  | [] => l
  | i :: r => if 10 <? length l then let b := first_min (off_middle l) i r in firstn b l ++ [newline] ++ skipn b l else l
  end.
