(** Model of nested configuration dictionaries (util.py:1240-1304), of the command line entry point
    (cli.py) and of the results files of a run (mcmc_setup.py:102-120). *)
From Verif Require Export M_text.
Set Implicit Arguments.
Unset Strict Implicit.

(** * Dictionaries: items in order of insertion, with distinct keys; values are settings or dictionaries.
    Keys are strings; the settings are of any type. *)
Section Trees.
Variable Setting : Type.
Inductive tree := Leaf (x : Setting) | Dict (items : list (str * tree)).
Definition dict := list (str * tree).
Definition is_dict (t : tree) : bool := match t with Dict _ => true | Leaf _ => false end.
(** [d.get(k)] *)
Fixpoint get (k : str) (d : dict) : option tree :=
  match d with
  | [] => None
  | (k', v) :: r => if str_eqb k k' then Some v else get k r
  end.
(** [d[k] = v]: an existing key keeps its place, a new one is added at the end. *)
Fixpoint put (k : str) (v : tree) (d : dict) : dict :=
  match d with
  | [] => [(k, v)]
  | (k', v') :: r => if str_eqb k k' then (k', v) :: r else (k', v') :: put k v r
  end.

(** util.py:1240-1263 -- [set_defaults(cfg, default_cfg)].  The loop over the keys of [default_cfg]; the
    dictionary [cfg] is returned instead of changed in place. *)
Fixpoint set_defaults_in (default : tree) (cfg : dict) {struct default} : dict :=
  match default with
  | Leaf _ => cfg
  | Dict items =>
      (fix loop (items : list (str * tree)) (cfg : dict) {struct items} : dict :=
         match items with
         | [] => cfg
         | (k, v) :: r =>
             loop r (match get k cfg with
                     | None => put k v cfg
                     | Some (Dict c) => if is_dict v then put k (Dict (set_defaults_in v c)) cfg else cfg
                     | Some (Leaf _) => cfg
                     end)
         end) items cfg
  end.
Definition set_defaults (cfg default : dict) : dict := set_defaults_in (Dict default) cfg.

(** util.py:1266-1284 -- [update_recursive(cfg, new_cfg)] *)
Fixpoint update_in (new : tree) (cfg : dict) {struct new} : dict :=
  match new with
  | Leaf _ => cfg
  | Dict items =>
      (fix loop (items : list (str * tree)) (cfg : dict) {struct items} : dict :=
         match items with
         | [] => cfg
         | (k, v) :: r =>
             loop r (match get k cfg with
                     | Some (Dict c) => if is_dict v then put k (Dict (update_in v c)) cfg else put k v cfg
                     | _ => put k v cfg
                     end)
         end) items cfg
  end.
Definition update_recursive (cfg new : dict) : dict := update_in (Dict new) cfg.

(** util.py:1287-1304 -- [iter_items_recursive(cfg, loc)]: triples key, value, location. *)
Fixpoint items_in (t : tree) (loc : list str) {struct t} : list (str * Setting * list str) :=
  match t with
  | Leaf _ => []
  | Dict items =>
      (fix loop (items : list (str * tree)) : list (str * Setting * list str) :=
         match items with
         | [] => []
         | (k, v) :: r => match v with Dict _ => items_in v (loc ++ [k]) | Leaf x => [(k, x, loc)] end ++ loop r
         end) items
  end.
Definition iter_items_recursive (cfg : dict) : list (str * Setting * list str) := items_in (Dict cfg) [].
End Trees.
Arguments Leaf {Setting} x. Arguments Dict {Setting} items.

(** * The command line entry point *)
(** Settings of a configuration, as far as they are looked at. *)
Inductive setting := Int (n : nat) | Ints (l : list nat) | Other (x : str).
Definition get_in (d : dict setting) (k1 k2 : str) : option (tree setting) :=
  match get k1 d with Some (Dict c) => get k2 c | _ => None end.
(** config.py:384-408 -- [from_config_file(path, custom_settings)], with the content of the file as argument.
    Validation and defaults of pydantic: M_settings. *)
Definition from_config_file (file : dict setting) (custom : option (dict setting)) : dict setting :=
  match custom with Some c => update_recursive file c | None => file end.
(** cli.py:44-53 -- the settings passed by [runner] *)
Definition runner_settings (n_clusters : nat) : dict setting :=
  [(s_ "model", Dict [(s_ "clusters", Leaf (Int n_clusters))]); (s_ "mcmc", Dict [(s_ "runs", Leaf (Int 1))])].
(** cli.py:70-75 -- number of runs (default 1, config.py:309) and cluster numbers; [None]: assertion *)
Definition n_runs (cfg : dict setting) : nat := match get_in cfg (s_ "mcmc") (s_ "runs") with Some (Leaf (Int n)) => n | _ => 1 end.
Definition cluster_range (cfg : dict setting) : option (list nat) :=
  match get_in cfg (s_ "model") (s_ "clusters") with
  | Some (Leaf (Int n)) => Some [n]
  | Some (Leaf (Ints l)) => Some l
  | _ => None
  end.
(** A run: its number, its number of clusters, its configuration. *)
Record run_spec := { rs_run : nat; rs_clusters : nat; rs_config : dict setting }.
(** cli.py:56-88 -- [main(config, experiment_name, custom_settings)]: the runs that are started *)
Definition main_runs (file : dict setting) (custom : option (dict setting)) : option (list run_spec) :=
  let cfg := from_config_file file custom in
  match cluster_range cfg with
  | None => None
  | Some ks =>
      Some (map (fun '(i, k) => {| rs_run := i; rs_clusters := k; rs_config := from_config_file file (Some (runner_settings k)) |})
                (list_prod (seq 0 (n_runs cfg)) ks))
  end.

(** * Files *)
(** A path below the results directory. *)
Definition path := list str.
(** What a run writes: four results files, experiment.log (experiment_setup.py:66-68) and the copy of the
    config file (lines 50-54). *)
Inductive file_id := FStats | FClusters | FOpStats | FLikelihood | FLog | FConfig.
(** mcmc_setup.py:102-109 *)
Definition run_dir (k : nat) : str := s_ "K" ++ str_nat k.
Definition suffix (k run : nat) : str := s_ "_K" ++ str_nat k ++ s_ "_" ++ str_nat run.
Definition file_path (config_name : str) (k run : nat) (f : file_id) : path :=
  match f with
  | FStats => [run_dir k; s_ "stats" ++ suffix k run ++ s_ ".txt"]
  | FClusters => [run_dir k; s_ "clusters" ++ suffix k run ++ s_ ".txt"]
  | FOpStats => [run_dir k; s_ "operator_stats" ++ suffix k run ++ s_ ".txt"]
  | FLikelihood => [run_dir k; s_ "likelihood" ++ suffix k run ++ s_ ".h5"]
  | FLog => [s_ "experiment.log"]
  | FConfig => [config_name]
  end.
(** Operations on a file: opening for writing empties it, opening for appending leaves it. *)
Inductive file_op := Truncate | Append (x : str).
Definition apply_op (o : file_op) (content : option str) : option str :=
  match o with
  | Truncate => Some []
  | Append x => Some (match content with Some c => c | None => [] end ++ x)
  end.
(** The file system: content of each file, if it exists; executing operations in order. *)
Definition fs := path -> option str.
Definition path_eqb (a b : path) : bool := if list_eq_dec (list_eq_dec ascii_dec) a b then true else false.
Fixpoint exec (ops : list (path * file_op)) (s : fs) : fs :=
  match ops with
  | [] => s
  | (p, o) :: r => exec r (fun q => if path_eqb q p then apply_op o (s q) else s q)
  end.
(** The operations of run [(i, k)]: anything, but only on its own files. *)
Definition run_ops (config_name : str) (k run : nat) (trace : list (file_id * file_op)) : list (path * file_op) :=
  map (fun '(f, o) => (file_path config_name k run f, o)) trace.
