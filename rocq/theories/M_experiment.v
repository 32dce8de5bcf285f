(** Model of a whole analysis on the file system: experiment_setup.py:23-71, cli.py:15-88, mcmc_setup.py:28-29, 57-58, 102-120,
    util.py:219-229, config.py:384-408 (reading the configuration file).

    Simplifications: files are texts; symbolic links, "..", permissions and full disks are not modelled; what happens between reading
    the data and writing the last sample is an arbitrary function of random numbers, settings, contents of the input files and the
    number of the run (M_mcmc, M_loggers etc. model it); the files of a run get their content at once; runs are executed one after
    the other ([processes <= 1]; parallel runs: C42).  Exceptions of all kinds are [None]. *)
From Coq Require Import QArith.
From Verif Require Export M_settings.
Set Implicit Arguments.
Unset Strict Implicit.
Open Scope nat_scope.

Definition bind A B (x : option A) (f : A -> option B) : option B := match x with Some a => f a | None => None end.

(** * The file system *)
Inductive node := Directory | File (content : str).
Definition disk := dir -> option node.
Definition store (p : dir) (n : node) (s : disk) : disk := fun q => if path_eqb q p then Some n else s q.
Definition is_file (s : disk) (p : dir) : bool := match s p with Some (File _) => true | _ => false end.
Definition is_dir (s : disk) (p : dir) : bool := match s p with Some Directory => true | _ => false end.
Definition parent (p : dir) : dir := removelast p.
(** [os.makedirs(p, exist_ok=True)]: all directories on the way; a file on the way is an error *)
Definition make_one (p : dir) (s : disk) : option disk :=
  match s p with None => Some (store p Directory s) | Some Directory => Some s | Some (File _) => None end.
Fixpoint make_all (ps : list dir) (s : disk) : option disk :=
  match ps with [] => Some s | p :: ps => bind (make_one p s) (make_all ps) end.
Definition prefixes (p : dir) : list dir := map (fun n => firstn n p) (seq 0 (S (length p))).
Definition makedirs (p : dir) (s : disk) : option disk := make_all (prefixes p) s.
Definition can_make (s : disk) (p : dir) : bool := match makedirs p s with Some _ => true | None => false end.
(** [Path.mkdir(exist_ok=True)]: the parent has to exist *)
Definition mkdir (p : dir) (s : disk) : option disk := if is_dir s (parent p) then make_one p s else None.
(** [open(p, "w")], then writing [text] *)
Definition write_file (p : dir) (text : str) (s : disk) : option disk :=
  if is_dir s (parent p) && negb (is_dir s p) then Some (store p (File text) s) else None.
(** Opening for appending ([logging.FileHandler]), then writing [text] *)
Definition append_file (p : dir) (text : str) (s : disk) : option disk :=
  write_file p (match s p with Some (File old) => old ++ text | _ => text end) s.
Definition base_name (p : dir) : str := last p [].
(** [shutil.copy(src, dst)]: into [dst] if this is a directory; copying a file onto itself raises SameFileError *)
Definition copy_file (src dst : dir) (s : disk) : option disk :=
  let dst := if is_dir s dst then dst ++ [base_name src] else dst in
  match s src with
  | Some (File text) => if path_eqb src dst then None else write_file dst text s
  | _ => None
  end.

(** * Names of experiments *)
(** [datetime.datetime] *)
Record datetime := { year : nat; month : nat; day : nat; hour : nat; minute : nat; second : nat; microsecond : nat }.
Definition digit (n : nat) : ascii := ascii_of_nat (48 + n).
(** ["{:0w}".format(n)] for [n < 10 ** w] *)
Fixpoint padded (w n : nat) : str := match w with 0 => [] | S w => padded w (n / 10) ++ [digit (n mod 10)] end.
(** [datetime.__str__]: microseconds are left out if zero *)
Definition str_datetime (t : datetime) : str :=
  padded 4 (year t) ++ s_ "-" ++ padded 2 (month t) ++ s_ "-" ++ padded 2 (day t) ++ s_ " " ++
  padded 2 (hour t) ++ s_ ":" ++ padded 2 (minute t) ++ s_ ":" ++ padded 2 (second t) ++
  (if microsecond t =? 0 then [] else s_ "." ++ padded 6 (microsecond t)).
(** [str.replace(c, d)] for single characters *)
Definition replace (c d : ascii) (l : str) : str := map (fun x => if ascii_dec x c then d else x) l.
(** util.py:219-229 *)
Definition set_experiment_name (t : datetime) : str :=
  let now := hd [] (split "."%char (str_datetime t)) in
  let now := firstn (length now - 3) now in
  replace " "%char "_"%char (replace ":"%char "-"%char now).
(** experiment_setup.py:31 -- [experiment_name or set_experiment_name()] *)
Definition experiment_name (name : option str) (now : datetime) : str :=
  match name with Some (c :: n) => c :: n | _ => set_experiment_name now end.

(** * Files of a run *)
(** [f'{k}'] of an integer *)
Definition str_Z (k : Z) : str := if (k <? 0)%Z then "-"%char :: str_nat (Z.to_nat (- k)) else str_nat (Z.to_nat k).
(** mcmc_setup.py:102-109 *)
Definition K_name (k : Z) : str := s_ "K" ++ str_Z k.
Definition run_file (kind : string) (k : Z) (i : nat) (ending : string) : str := s_ kind ++ s_ "_K" ++ str_Z k ++ s_ "_" ++ str_nat i ++ s_ ending.
(** What a run writes (mcmc_setup.py:111-120): messages, and one text for each logger *)
Record outputs := { o_log : str; o_stats : str; o_clusters : str; o_opstats : str; o_likelihood : str }.

Section Run.
Variable to_int : json -> option Z.
Variable to_float : json -> option Q.
Variable to_bool : json -> option bool.
Variable to_str : json -> option str.
Variable parse : str -> str -> option (dict value).   (** config.py:395-402: YAML or JSON, by the ending of the name of the file *)
Variable Random : Type.
Variable analyse : Random -> config -> list (option node) -> nat -> option outputs.
Variable cwd : dir.

(** config.py:384-408 -- [from_config_file(path, custom_settings)]; the directory of results is created (lines 52-55; a default
    path is created later, by [makedirs] in the experiment). *)
Definition load (path : str) (custom : option (dict value)) (s : disk) : option (config * disk) :=
  let p := fix_relative_path path cwd in
  match s p with
  | Some (File content) =>
      bind (parse (base_name p) content) (fun d =>
      bind (from_file to_int to_float to_bool to_str (is_file s) (can_make s) (base_directory cwd path) d custom) (fun c =>
      bind (makedirs (r_path (s_results c)) s) (fun s => Some (c, s))))
  | _ => None
  end.
(** experiment_setup.py:69-71 -- the messages at the start (the handler adds line breaks) *)
Definition newline : ascii := ascii_of_nat 10.
Definition start_messages (name : str) (path : dir) : str :=
  s_ "Experiment: " ++ name ++ newline :: s_ "File location for results: " ++ show_path path ++ [newline].
(** experiment_setup.py:23-57, 65-67 -- name, settings, directory of results ([path / name]: an absolute name replaces the path),
    log file, copy of the configuration file *)
Definition experiment (path : str) (name : option str) (custom : option (dict value)) (log : bool) (now : datetime) (s : disk)
  : option (str * config * dir * disk) :=
  let name := experiment_name name now in
  bind (load path custom s) (fun '(c, s) =>
  let results := fix_relative_path name (r_path (s_results c)) in
  bind (makedirs results s) (fun s =>
  bind (append_file (results ++ [s_ "experiment.log"]) (if log then start_messages name results else []) s) (fun s =>
  bind (copy_file (fix_relative_path path cwd) (results ++ [base_name (fix_relative_path path cwd)]) s) (fun s =>
  Some (name, c, results, s))))).
(** The files that are read when the data are loaded and the priors created: load_data.py:240-252, prior.py:143-149, 464-478 *)
Definition maybe_file (f : option dir) : list dir := match f with Some p => [p] | None => [] end.
Definition input_files (c : config) : list dir :=
  let p := m_prior (s_model c) in
  [t_features (s_data c); t_states (s_data c)] ++ maybe_file (g_costs (p_geo p)) ++
  flat_map (fun kv => flat_map (fun g => maybe_file (d_file (snd g))) (snd kv)) (p_confounding p) ++
  maybe_file (d_file (p_cluster p)) ++ maybe_file (d_file (p_weights p)).
(** mcmc_setup.py:102-120, loggers.py:39-51 -- the files of a run; no likelihoods if sampling from the prior *)
Definition clusters_of (c : config) : list Z := match m_clusters (s_model c) with One k => [k] | Many ks => ks end.
Definition write_results (results : dir) (c : config) (k : Z) (i : nat) (o : outputs) (s : disk) : option disk :=
  let base := results ++ [K_name k] in
  bind (append_file (results ++ [s_ "experiment.log"]) (o_log o) s) (fun s =>
  bind (mkdir base s) (fun s =>
  bind (write_file (base ++ [run_file "stats" k i ".txt"]) (o_stats o) s) (fun s =>
  bind (write_file (base ++ [run_file "clusters" k i ".txt"]) (o_clusters o) s) (fun s =>
  bind (write_file (base ++ [run_file "operator_stats" k i ".txt"]) (o_opstats o) s) (fun s =>
  if c_from_prior (s_mcmc c) then Some s
  else write_file (base ++ [run_file "likelihood" k i ".h5"]) (o_likelihood o) s))))).
(** cli.py:15-53 -- [runner((i_run, n_clusters, config, experiment_name))] *)
Definition runner (r : Random) (i : nat) (k : Z) (path name : str) (now : datetime) (s : disk) : option disk :=
  bind (experiment path (Some name) (Some (run_settings k)) true now s) (fun '(_, c, results, s) =>
  bind (analyse r c (map s (input_files c)) i) (fun o =>
  write_results results c k i o s)).
(** cli.py:80-84; each run starts at its own time *)
Fixpoint run_all (r : Random) (jobs : list (nat * Z)) (path name : str) (clock : nat -> datetime) (s : disk) : option disk :=
  match jobs with
  | [] => Some s
  | (i, k) :: jobs => bind (runner r i k path name (clock 0) s) (run_all r jobs path name (fun n => clock (S n)))
  end.
(** cli.py:56-88 *)
Definition main (r : Random) (path : str) (name : option str) (custom : option (dict value)) (clock : nat -> datetime) (s : disk) : option disk :=
  bind (experiment path name custom false (clock 0) s) (fun '(name, c, _, s) =>
  run_all r (list_prod (seq 0 (Z.to_nat (c_runs (s_mcmc c)))) (clusters_of c)) path name (fun n => clock (S n)) s).
End Run.
