(** Model of the plot of the DIC (plot.py:1422-1489) and of the program that draws the plots of all models
    (plot.py:1800-1866). *)
From Verif Require Export M_plot M_plot2 M_results M_simplex.
Set Implicit Arguments.
Unset Strict Implicit.
Close Scope R_scope.
Close Scope Q_scope.
Open Scope nat_scope.

(** * The plot of the DIC *)
(** plot.py:1442 -- [l[i]] of a list; negative numbers count from the end; [None]: IndexError. *)
Definition py_index {A} (l : list A) (i : Z) : option A :=
  if (i <? 0)%Z then (if (Z.of_nat (length l) + i <? 0)%Z then None else nth_error l (Z.to_nat (Z.of_nat (length l) + i)))
  else nth_error l (Z.to_nat i).
(** plot.py:1461 -- [ax.plot(x, y)] with names [x]: matplotlib gives equal names the same place, new names the next one.
    [name_places seen x]: the names with a place so far, in the order of their places. *)
Fixpoint name_places (seen : list str) (x : list str) : list str :=
  match x with [] => seen | m :: r => name_places (if mem m seen then seen else seen ++ [m]) r end.
Fixpoint index_of (m : str) (l : list str) : nat := match l with [] => 0 | y :: r => if str_eqb m y then 0 else S (index_of m r) end.
(** plot.py:1465, 1483 -- [min(y)], [np.linspace(a, b, 6)] *)
Fixpoint min_q (x : Q) (l : list Q) : Q := match l with [] => x | y :: r => let m := min_q y r in if Qle_bool m x then m else x end.
Definition linspace6 (a b : Q) : list Q := map (fun i => (a + (b - a) * inject_Z (Z.of_nat i) / 5)%Q) (seq 0 6).
(** plot.py:1461-1489 -- the points (place, value), the labels at the places 0, 1, ..., the limits and the ticks of the value *)
Record dic_figure := {
  df_file : str;
  df_points : list (nat * Q);
  df_labels : list str;
  df_x : Q * Q;
  df_y : Q * Q;
  df_ticks : list Q }.
(** plot.py:1477-1482 -- the label at each of the [n] places: matplotlib takes the labels one by one, and no label if there are
    not enough. *)
Definition tick_labels (n : nat) (labels : list str) : list str := map (fun i => nth i labels []) (seq 0 n).
(** plot.py:1422-1489 -- [plot_dic]; [which]: config 'model', [labels]: config 'labels'.  [None]: IndexError (no such model),
    ValueError ([min] of no values; maximum of no samples).  The check of line 1445 never holds.  Line width, sizes and fonts are
    not modelled. *)
Definition plot_dic (which : list Z) (burn_in : Q) (labels : list str) (file_name file_format : str) (models : list (str * results))
  : option dic_figure :=
  obind (match which with
         | [] => Some (map fst models)
         | _ => all_opt (map (fun i => py_index (map fst models) (i - 1)) which)
         end) (fun x =>
  obind (all_opt (map (fun m => obind (lookup m models) (fun r => compute_dic (r_likelihood r) burn_in)) x)) (fun y =>
  match y with
  | [] => None
  | y0 :: ys =>
      let names := name_places [] x in
      let y_min := min_q y0 ys in let y_max := max_q y0 ys in
      let y_range := (y_max - y_min)%Q in
      Some {| df_file := file_name ++ dot :: file_format;
              df_points := combine (map (fun m => index_of m names) x) y;
              df_labels := tick_labels (length names) (match labels with [] => x | _ => labels end);
              df_x := (- (1 # 5), inject_Z (Z.of_nat (length x)) - (4 # 5))%Q;
              df_y := (y_min - y_range * (1 # 10), y_max + y_range * (1 # 10))%Q;
              df_ticks := linspace6 y_min y_max |}
  end)).

(** * All plots *)
(** config 'min_posterior_frequency': a number, or a list (a tuple after [convert_config], plot.py:138-145); with its text
    in an f-string *)
Inductive frequency := One (t : Q) (text : str) | Several (ts : list Q) (text : str).
Definition frequency_text (f : frequency) : str := match f with One _ s => s | Several _ s => s end.
(** The settings (after the defaults are set): config['map'], ['weight_plot'], ['preference_plot'], ['pie_plot'],
    ['feature_plot'], ['dic_plot'] (config/default_config_plot.json). *)
Record plot_config := {
  pc_plotted : str -> bool;                 (** [should_be_plotted] (C85) *)
  pc_type : str; pc_frequency : frequency; pc_burn_in : Q; pc_map_format : str;
  pc_weight_features : list str; pc_weight_names : option (list str); pc_weight_cols : nat; pc_weight_format : str;
  pc_pref_add : bool; pc_pref_which : list str; pc_pref_cols : nat; pc_pref_format : str;
  pc_pie_burn_in : Q; pc_pie_cols : nat; pc_pie_format : str;
  pc_feature : option str;                  (** [args.feature_name] *)
  pc_feature_add : bool; pc_feature_names : option (list str);
  pc_dic_models : list Z; pc_dic_burn_in : Q; pc_dic_labels : list str; pc_dic_format : str }.
Definition graph := (list bool * list (nat * nat * option Q))%type.
Inductive picture :=
| PMap (gs : list graph)                    (** objects and lines of every cluster (C79) *)
| PWeights (f : figure) | PPreference (f : figure) | PPies (ps : list pie) | PDic (f : dic_figure).
(** The files in the directory of the plots, the corners kept by the cache (plot.py:950-959), the models read so far. *)
Record plot_state := { ps_files : list (str * picture); ps_cache : cache; ps_results : list (str * results) }.
(** A statement: the state afterwards and whether it ended without an exception. *)
Definition action := plot_state -> plot_state * bool.
Definition skip : action := fun st => (st, true).
Definition andthen (a b : action) : action := fun st => let '(st, ok) := a st in if ok then b st else (st, false).
Definition when (b : bool) (a : action) : action := if b then a else skip.
(** [fig.savefig(self.path_plots / name)] (plot.py:948, 1292, 1418, 1488, 1782): a name with a slash is in a directory that does
    not exist (FileNotFoundError). *)
Definition slash : ascii := "/".
Definition save (name : str) (p : picture) : action := fun st =>
  if existsb (fun x => if ascii_dec x slash then true else false) name then (st, false)
  else ({| ps_files := set_key name p (ps_files st); ps_cache := ps_cache st; ps_results := ps_results st |}, true).
Definition keep_cache (c : cache) : action := fun st => ({| ps_files := ps_files st; ps_cache := c; ps_results := ps_results st |}, true).
Definition raise : action := fun st => (st, false).

Section Main.
(** Triangulation (util.py:119-144), the numbers in the files ([float]), the positions on the map and the names of the
    objects, and the graphs drawn if there are as many frequencies as objects (numpy then compares one by one). *)
Variable delaunay : list point -> list (list bool).
Variable parse : str -> option Q.
Variable locations : list point.
Variable names : list str.
Variable each : list Q -> list bmat -> option (list graph).
Variable cfg : plot_config.

(** plot.py:345-405, 493-501 -- the graphs of all clusters.  A tuple of frequencies is compared with the array of the
    frequencies of the objects: numpy fails unless it has one entry or one entry per object. *)
Definition model_graphs (t : map_type) (r : results) : option (list graph) :=
  all_opt (map (clusters_to_graph delaunay t (pc_burn_in cfg) locations) (r_clusters r)).
Definition graphs_with (f : frequency) (r : results) : option (list graph) :=
  match f with
  | One t _ => model_graphs (Consensus t) r
  | Several [t] _ => model_graphs (Consensus t) r
  | Several ts _ => if length ts =? length locations then each ts (r_clusters r) else None
  end.
(** plot.py:866-950 -- [posterior_map]: the graphs (table and legend: C83, C84) *)
Definition posterior_map (gs : option (list graph)) (file_name : str) : action :=
  match gs with None => raise | Some gs => save (file_name ++ dot :: pc_map_format cfg) (PMap gs) end.
(** plot.py:1850-1866 -- [plot_map].  [min_posterior_frequency in [tuple, list, set]] compares it with three classes and is
    never true, so the loop of lines 1860-1862 is not reached. *)
Definition plot_map (m : str) (r : results) : action :=
  if str_eqb (pc_type cfg) (s_ "density_map") then posterior_map (model_graphs M_plot.Density r) (s_ "posterior_map_" ++ m)
  else if str_eqb (pc_type cfg) (s_ "consensus_map") then
    posterior_map (graphs_with (pc_frequency cfg) r) (s_ "posterior_map_" ++ m ++ [underscore] ++ frequency_text (pc_frequency cfg))
  else raise.
(** plot.py:1824-1826 *)
Definition weights_action (m : str) (r : results) : action := fun st =>
  match plot_weights (ps_cache st) (pc_weight_features cfg) (pc_weight_names cfg) (pc_weight_cols cfg) (s_ "weights_grid_" ++ m) (pc_weight_format cfg) (r_weights r) with
  | None => (st, false)
  | Some f => save (fg_file f) (PWeights f) st
  end.
(** plot.py:1398-1420 -- the loop over the components: each figure is saved before the next one is drawn. *)
Fixpoint preference_actions (r : results) (n_row : nat) (off : list nat) (file_name : str) (prefs : list (str * list (str * list (list Q)))) : action :=
  match prefs with
  | [] => skip
  | p :: rest => fun st =>
      match preference_figures (ps_cache st) (pc_pref_add cfg) r (pc_pref_cols cfg) n_row off file_name (pc_pref_format cfg) [p] with
      | None => (st, false)
      | Some (c, fs) =>
          andthen (keep_cache c) (andthen (fold_right (fun f a => andthen (save (fg_file f) (PPreference f)) a) skip fs)
                                          (preference_actions r n_row off file_name rest)) st
      end
  end.
(** plot.py:1828-1830, 1359-1420 *)
Definition preferences_action (m : str) (r : results) : action :=
  match grid (length (r_features r)) (pc_pref_cols cfg) with
  | None => match selected (pc_pref_which cfg) (all_preferences r) with
            | [] => if pc_pref_cols cfg =? 0 then raise else skip          (** no figure is made *)
            | _ => raise
            end
  | Some (n_row, off) => preference_actions r n_row off (s_ "prob_grid_" ++ m) (selected (pc_pref_which cfg) (all_preferences r))
  end.
(** plot.py:1832-1835 *)
Definition pies_action (m : str) (r : results) : action :=
  match plot_pies (pc_pie_burn_in cfg) (pc_pie_cols cfg) names (r_clusters r) with
  | None => raise
  | Some ps => save (s_ "plot_pies_" ++ m ++ dot :: pc_pie_format cfg) (PPies ps)
  end.
(** plot.py:1838-1843 -- shown on the screen, no file *)
Definition feature_action (r : results) : action := fun st =>
  match pc_feature cfg with
  | None => (st, true)
  | Some f => match plot_weights_and_prefs (ps_cache st) (pc_feature_add cfg) (pc_feature_names cfg) f r with
              | None => (st, false)
              | Some (c, _) => keep_cache c st
              end
  end.
(** plot.py:238 -- [self.results[model_name] = results] *)
Definition remember (m : str) (r : results) : action := fun st =>
  ({| ps_files := ps_files st; ps_cache := ps_cache st; ps_results := set_key m r (ps_results st) |}, true).
(** plot.py:1817-1843 -- the body of the loop *)
Definition model_action (m : str) (r : results) : action :=
  andthen (remember m r)
  (andthen (when (pc_plotted cfg (s_ "map")) (plot_map m r))
  (andthen (when (pc_plotted cfg (s_ "weights_plot")) (weights_action m r))
  (andthen (when (pc_plotted cfg (s_ "preference_plot")) (preferences_action m r))
  (andthen (when (pc_plotted cfg (s_ "pie_plot")) (pies_action m r))
           (when (pc_plotted cfg (s_ "feature_plot")) (feature_action r)))))).
(** plot.py:227-241, 1817 -- the loop; [read]: the contents of the files.  A file is read when its turn comes. *)
Definition read_model (read : path -> option str) (cs : path * path) : option results :=
  obind (read (fst cs)) (fun c => obind (read (snd cs)) (fun s => from_csv_files parse c s (pc_burn_in cfg))).
Fixpoint model_actions (read : path -> option str) (ms : list (str * (path * path))) : action :=
  match ms with
  | [] => skip
  | (m, cs) :: rest =>
      match read_model read cs with
      | None => raise
      | Some r => andthen (model_action m r) (model_actions read rest)
      end
  end.
(** plot.py:1845-1847 *)
Definition dic_action : action := fun st =>
  match plot_dic (pc_dic_models cfg) (pc_dic_burn_in cfg) (pc_dic_labels cfg) (s_ "dic") (pc_dic_format cfg) (ps_results st) with
  | None => (st, false)
  | Some f => save (df_file f) (PDic f) st
  end.
(** plot.py:1800-1847 -- [main], after the settings and the objects are read; [files]: what the directory of the plots holds
    before.  Printing and the figures in memory are not modelled. *)
Definition main (read : path -> option str) (clusters stats : list path) (files : list (str * picture)) : plot_state * bool :=
  andthen (model_actions read (models clusters stats)) (when (pc_plotted cfg (s_ "dic_plot")) dic_action)
    {| ps_files := files; ps_cache := new_cache; ps_results := [] |}.
End Main.
