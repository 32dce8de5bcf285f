(** Model of the settings of an analysis: config.py:28-412, util.py:1161-1183, and of what the model does with the
    settings of its priors (prior.py:33-62, 143-149, 200-210, 226-256, 258-266, 300-308).

    Simplifications: the conversions of pydantic for integers, floats, booleans and texts are arguments; lists of pairs in
    place of dictionaries, YAML keys that are not texts, and warnings are not modelled.  Exceptions of all kinds are [None]. *)
From Coq Require Import QArith.
From Verif Require Export M_config.
Set Implicit Arguments.
Unset Strict Implicit.
Open Scope nat_scope.

(** * Values of a configuration file *)
Inductive value := Null | Bool (b : bool) | Num (q : Q) | Str (s : str) | Seq (l : list value).
Definition json := tree value.
(** Truth of a value in Python *)
Definition truthy (x : json) : bool :=
  match x with
  | Leaf Null => false
  | Leaf (Bool b) => b
  | Leaf (Num q) => negb (Qeq_bool q 0)
  | Leaf (Str s) => match s with [] => false | _ => true end
  | Leaf (Seq l) => match l with [] => false | _ => true end
  | Dict d => match d with [] => false | _ => true end
  end.
Fixpoint all_some A (l : list (option A)) : option (list A) :=
  match l with
  | [] => Some []
  | None :: _ => None
  | Some x :: r => match all_some r with Some r' => Some (x :: r') | None => None end
  end.

(** * Paths *)
(** pathlib.PurePosixPath: the components of a path, without empty ones and "."; absolute paths as lists of components.
    Two leading slashes are not modelled. *)
Definition slash : ascii := "/".
Definition components (s : str) : list str := filter (fun c => negb (mem c (map s_ [""; "."]%string))) (split slash s).
Definition is_absolute (s : str) : bool := match s with c :: _ => if ascii_dec c slash then true else false | [] => false end.
Definition dir := list str.
(** [str(path)] of an absolute path *)
Definition show_path (p : dir) : str := slash :: join [slash] p.
(** util.py:1169-1183 -- [fix_relative_path(path, base_directory)] *)
Definition fix_relative_path (s : str) (base : dir) : dir := if is_absolute s then components s else base ++ components s.
(** util.py:1161-1166 -- [decompose_config_path(config_path)] in the working directory [cwd]: the base directory *)
Definition base_directory (cwd : dir) (config_path : str) : dir := removelast (fix_relative_path config_path cwd).

(** * Parsed settings *)
(** config.py:81-131; enumerations are represented by their values; [None] for [costs]: from_data *)
Record geo_config := { g_type : str; g_costs : option dir; g_aggregation : str; g_function : str; g_rate : option Q; g_inflection : option Q; g_skeleton : str }.
(** config.py:141-156 *)
Record size_config := { z_type : str; z_min : Z; z_max : Z }.
(** config.py:159-172 *)
Record dirichlet := { d_type : str; d_file : option dir; d_parameters : option (dict value) }.
(** config.py:223-233 *)
Record prior_config := { p_confounding : list (str * list (str * dirichlet)); p_cluster : dirichlet; p_geo : geo_config; p_size : size_config; p_weights : dirichlet }.
(** config.py:236-250 *)
Inductive clusters_setting := One (k : Z) | Many (ks : list Z).
Record model_config := { m_clusters : clusters_setting; m_confounders : list (str * list str); m_source : bool; m_prior : prior_config }.
(** config.py:268-298 *)
Record operators_config := { o_clusters : Q; o_weights : Q; o_cluster_effect : Q; o_confounding : Q; o_source : Q }.
Record warmup_config := { w_steps : Z; w_chains : Z }.
(** config.py:299-323 *)
Record mcmc_config := { c_steps : Z; c_samples : Z; c_runs : Z; c_from_prior : bool; c_init : Z; c_grow : Q; c_operators : operators_config; c_warmup : warmup_config }.
(** config.py:332-356 *)
Record data_config := { t_features : dir; t_states : dir; t_projection : str }.
Record results_config := { r_path : dir; r_log : bool }.
(** config.py:369-375 *)
Record config := { s_data : data_config; s_model : model_config; s_mcmc : mcmc_config; s_results : results_config }.

Notation "x <- e ;; f" := (match e with Some x => f | None => None end) (at level 61, e at next level, right associativity).
Definition guard A (b : bool) (x : option A) : option A := if b then x else None.

Section Parse.
Variable to_int : json -> option Z.
Variable to_float : json -> option Q.
Variable to_bool : json -> option bool.
Variable to_str : json -> option str.
Variable is_file : dir -> bool.     (** the path is an existing file *)
Variable make_dir : dir -> bool.    (** [os.makedirs] works and the path is a directory *)
Variable base : dir.                (** [RelativePath.BASE_DIR] *)

(** ** Fields *)
Definition required A (v : json -> option A) (k : str) (d : dict value) : option A := match get k d with Some x => v x | None => None end.
Definition optional A (v : json -> option A) (default : A) (k : str) (d : dict value) : option A := match get k d with Some x => v x | None => Some default end.
(** [Optional[...]] *)
Definition nullable A (v : json -> option A) (x : json) : option (option A) := match x with Leaf Null => Some None | _ => option_map Some (v x) end.
Definition section A (v : dict value -> option A) (x : json) : option A := match x with Dict d => v d | Leaf _ => None end.
(** config.py:72-75 -- no other keys *)
Definition only (keys : list string) (d : dict value) : bool := forallb (fun kv => mem (fst kv) (map s_ keys)) d.
Definition positive_int (x : json) : option Z := n <- to_int x;; if (0 <? n)%Z then Some n else None.
Definition positive_float (x : json) : option Q := q <- to_float x;; if negb (Qle_bool q 0) then Some q else None.
Definition nonneg_float (x : json) : option Q := q <- to_float x;; if Qle_bool 0 q then Some q else None.
Definition unit_float (x : json) : option Q := q <- to_float x;; if Qle_bool 0 q && Qle_bool q 1 then Some q else None.
Definition one_of (names : list string) (x : json) : option str := match x with Leaf (Str s) => if mem s (map s_ names) then Some s else None | _ => None end.
(** config.py:28-57 *)
Definition fix_path (x : json) : option dir := match x with Leaf (Str s) => Some (fix_relative_path s base) | _ => None end.
Definition file_path (x : json) : option dir := p <- fix_path x;; if is_file p then Some p else None.
Definition directory_path (x : json) : option dir := p <- fix_path x;; if make_dir p then Some p else None.
Definition is_text (t : string) (x : option json) : bool := match x with Some (Leaf (Str s)) => str_eqb s (s_ t) | _ => false end.
Definition is_none (x : option json) : bool := match x with None | Some (Leaf Null) => true | _ => false end.

(** ** Sections *)
(** config.py:111-113 -- [Union[RelativeFilePath, Literal["from_data"]]]: a file of this name comes first *)
Definition costs (x : json) : option (option dir) :=
  match file_path x with Some p => Some (Some p) | None => if is_text "from_data" (Some x) then Some None else None end.
(** config.py:81-138 *)
Definition parse_geo (d : dict value) : option geo_config :=
  type <- optional (one_of ["uniform"; "cost_based"; "diameter_based"]%string) (s_ "uniform") (s_ "type") d;;
  cs <- optional costs None (s_ "costs") d;;
  aggregation <- optional (one_of ["mean"; "sum"; "max"]%string) (s_ "mean") (s_ "aggregation") d;;
  function <- optional (one_of ["exponential"; "sigmoid"]%string) (s_ "exponential") (s_ "probability_function") d;;
  rate <- optional (nullable positive_float) None (s_ "rate") d;;
  inflection <- optional (nullable to_float) None (s_ "inflection_point") d;;
  skeleton <- optional (one_of ["mst"; "delaunay"; "diameter"; "complete_graph"]%string) (s_ "mst") (s_ "skeleton") d;;
  guard (only ["type"; "costs"; "aggregation"; "probability_function"; "rate"; "inflection_point"; "skeleton"]%string d &&
         negb (str_eqb type (s_ "cost_based") && match rate with None => true | Some _ => false end))
    (Some {| g_type := type; g_costs := cs; g_aggregation := aggregation; g_function := function; g_rate := rate; g_inflection := inflection; g_skeleton := skeleton |}).
(** config.py:141-156 *)
Definition parse_size (d : dict value) : option size_config :=
  type <- required (one_of ["uniform_area"; "uniform_size"; "quadratic"]%string) (s_ "type") d;;
  mn <- optional positive_int 2%Z (s_ "min") d;;
  mx <- optional positive_int 10000%Z (s_ "max") d;;
  guard (only ["type"; "min"; "max"]%string d) (Some {| z_type := type; z_min := mn; z_max := mx |}).
(** config.py:159-188 *)
Definition parse_dirichlet (d : dict value) : option dirichlet :=
  guard (negb (is_text "dirichlet" (get (s_ "type") d) && is_none (get (s_ "file") d) && is_none (get (s_ "parameters") d)))
    (type <- optional (one_of ["uniform"; "dirichlet"]%string) (s_ "uniform") (s_ "type") d;;
     file <- optional (nullable file_path) None (s_ "file") d;;
     parameters <- optional (nullable (section (fun p => Some p))) None (s_ "parameters") d;;
     guard (only ["type"; "file"; "parameters"]%string d) (Some {| d_type := type; d_file := file; d_parameters := parameters |})).
Definition items A (v : json -> option A) (d : dict value) : option (list (str * A)) :=
  all_some (map (fun kv => option_map (pair (fst kv)) (v (snd kv))) d).
(** config.py:223-233 *)
Definition parse_prior (d : dict value) : option prior_config :=
  conf <- required (section (items (section (items (section parse_dirichlet))))) (s_ "confounding_effects") d;;
  cl <- required (section parse_dirichlet) (s_ "cluster_effect") d;;
  geo <- required (section parse_geo) (s_ "geo") d;;
  size <- required (section parse_size) (s_ "objects_per_cluster") d;;
  weights <- required (section parse_dirichlet) (s_ "weights") d;;
  guard (only ["confounding_effects"; "cluster_effect"; "geo"; "objects_per_cluster"; "weights"]%string d)
    (Some {| p_confounding := conf; p_cluster := cl; p_geo := geo; p_size := size; p_weights := weights |}).
(** [Union[int, List[int]]] *)
Definition parse_clusters (x : json) : option clusters_setting :=
  match to_int x with
  | Some k => Some (One k)
  | None => match x with Leaf (Seq l) => option_map Many (all_some (map (fun v => to_int (Leaf v)) l)) | _ => None end
  end.
Definition parse_groups (x : json) : option (list str) :=
  match x with Leaf (Seq l) => all_some (map (fun v => to_str (Leaf v)) l) | _ => None end.
(** [values['prior']['confounding_effects'][conf]] *)
Definition priors_of (d : dict value) (conf : str) : option json :=
  match get (s_ "prior") d with
  | Some (Dict p) => match get (s_ "confounding_effects") p with Some (Dict ce) => get conf ce | _ => None end
  | _ => None
  end.
(** config.py:252-265 -- before the fields are read; [values['confounders']] has to be there *)
Definition validate_confounder_priors (d : dict value) : bool :=
  match get (s_ "confounders") d with
  | Some (Dict confounders) =>
      forallb (fun kv =>
        match priors_of d (fst kv), snd kv with
        | Some (Dict priors), Leaf (Seq groups) => forallb (fun g => match g with Str s => match get s priors with Some _ => true | None => false end | _ => false end) groups
        | _, _ => false
        end) confounders
  | _ => false
  end.
(** config.py:236-265 *)
Definition parse_model (d : dict value) : option model_config :=
  guard (validate_confounder_priors d)
    (ks <- optional parse_clusters (One 1) (s_ "clusters") d;;
     confounders <- optional (section (items parse_groups)) [] (s_ "confounders") d;;
     source <- optional to_bool true (s_ "sample_source") d;;
     prior <- required (section parse_prior) (s_ "prior") d;;
     guard (only ["clusters"; "confounders"; "sample_source"; "prior"]%string d)
       (Some {| m_clusters := ks; m_confounders := confounders; m_source := source; m_prior := prior |})).
(** config.py:268-298 *)
Definition default_operators : operators_config := {| o_clusters := 45; o_weights := 15; o_cluster_effect := 5; o_confounding := 15; o_source := 10 |}.
Definition parse_operators (d : dict value) : option operators_config :=
  cl <- optional nonneg_float 45%Q (s_ "clusters") d;;
  weights <- optional nonneg_float 15%Q (s_ "weights") d;;
  effect <- optional nonneg_float 5%Q (s_ "cluster_effect") d;;
  conf <- optional nonneg_float 15%Q (s_ "confounding_effects") d;;
  source <- optional nonneg_float 10%Q (s_ "source") d;;
  guard (only ["clusters"; "weights"; "cluster_effect"; "confounding_effects"; "source"]%string d)
    (Some {| o_clusters := cl; o_weights := weights; o_cluster_effect := effect; o_confounding := conf; o_source := source |}).
Definition default_warmup : warmup_config := {| w_steps := 50000; w_chains := 10 |}.
Definition parse_warmup (d : dict value) : option warmup_config :=
  steps <- optional positive_int 50000%Z (s_ "warmup_steps") d;;
  chains <- optional positive_int 10%Z (s_ "warmup_chains") d;;
  guard (only ["warmup_steps"; "warmup_chains"]%string d) (Some {| w_steps := steps; w_chains := chains |}).
(** config.py:299-330 *)
Definition parse_mcmc (d : dict value) : option mcmc_config :=
  steps <- optional positive_int 1000000%Z (s_ "steps") d;;
  samples <- optional positive_int 1000%Z (s_ "samples") d;;
  runs <- optional positive_int 1%Z (s_ "runs") d;;
  from_prior <- optional to_bool false (s_ "sample_from_prior") d;;
  init <- optional positive_int 5%Z (s_ "init_objects_per_cluster") d;;
  grow <- optional unit_float (4 # 5)%Q (s_ "grow_to_adjacent") d;;
  operators <- optional (section parse_operators) default_operators (s_ "operators") d;;
  warmup <- optional (section parse_warmup) default_warmup (s_ "warmup") d;;
  guard (only ["steps"; "samples"; "runs"; "sample_from_prior"; "init_objects_per_cluster"; "grow_to_adjacent"; "operators"; "warmup"]%string d &&
         (steps mod samples =? 0)%Z)
    (Some {| c_steps := steps; c_samples := samples; c_runs := runs; c_from_prior := from_prior; c_init := init; c_grow := grow;
             c_operators := operators; c_warmup := warmup |}).
(** config.py:332-343 *)
Definition parse_data (d : dict value) : option data_config :=
  features <- required file_path (s_ "features") d;;
  states <- required file_path (s_ "feature_states") d;;
  projection <- optional to_str (s_ "epsg:4326") (s_ "projection") d;;
  guard (only ["features"; "feature_states"; "projection"]%string d) (Some {| t_features := features; t_states := states; t_projection := projection |}).
(** config.py:346-356; the default path is not validated *)
Definition default_results : results_config := {| r_path := fix_relative_path (s_ "./results") base; r_log := true |}.
Definition parse_results (d : dict value) : option results_config :=
  path <- optional directory_path (r_path default_results) (s_ "path") d;;
  log <- optional to_bool true (s_ "log_file") d;;
  guard (only ["path"; "log_file"]%string d) (Some {| r_path := path; r_log := log |}).
(** config.py:377-382 -- [validate_operators], before the fields are read *)
Definition validate_operators (d : dict value) : option (dict value) :=
  match get (s_ "model") d with
  | Some (Dict m) =>
      source <- get (s_ "sample_source") m;;
      if truthy source then Some d
      else match get (s_ "mcmc") d with
           | Some (Dict c) =>
               match get (s_ "operators") c with
               | Some (Dict o) => Some (put (s_ "mcmc") (Dict (put (s_ "operators") (Dict (put (s_ "source") (Leaf (Num 0)) o)) c)) d)
               | _ => None
               end
           | _ => None
           end
  | _ => None
  end.
(** config.py:369-382 -- [SBayesConfig(config_dict)] *)
Definition parse_config (d : dict value) : option config :=
  d <- validate_operators d;;
  data <- required (section parse_data) (s_ "data") d;;
  model <- required (section parse_model) (s_ "model") d;;
  mcmc <- required (section parse_mcmc) (s_ "mcmc") d;;
  results <- optional (section parse_results) default_results (s_ "results") d;;
  guard (only ["data"; "model"; "mcmc"; "results"]%string d) (Some {| s_data := data; s_model := model; s_mcmc := mcmc; s_results := results |}).

(** ** config.py:190-202, 410-412 -- back to a dictionary, and updates *)
Definition text (s : str) : json := Leaf (Str s).
Definition int (n : Z) : json := Leaf (Num (inject_Z n)).
Definition float (q : Q) : json := Leaf (Num q).
Definition maybe A (f : A -> json) (x : option A) : json := match x with Some a => f a | None => Leaf Null end.
Definition path_text (p : dir) : json := text (show_path p).
(** Attributes that do not apply are hidden. *)
Definition dump_dirichlet (x : dirichlet) : json := Dict
  ((s_ "type", text (d_type x)) ::
   (if str_eqb (d_type x) (s_ "uniform") then []
    else match d_file x, d_parameters x with
         | Some p, _ => [(s_ "file", path_text p)]
         | None, Some d => [(s_ "parameters", Dict d)]
         | None, None => [(s_ "file", Leaf Null); (s_ "parameters", Leaf Null)]
         end)).
Definition dump_geo (x : geo_config) : json := Dict
  [(s_ "type", text (g_type x)); (s_ "costs", match g_costs x with Some p => path_text p | None => text (s_ "from_data") end);
   (s_ "aggregation", text (g_aggregation x)); (s_ "probability_function", text (g_function x)); (s_ "rate", maybe float (g_rate x));
   (s_ "inflection_point", maybe float (g_inflection x)); (s_ "skeleton", text (g_skeleton x))].
Definition dump_size (x : size_config) : json := Dict [(s_ "type", text (z_type x)); (s_ "min", int (z_min x)); (s_ "max", int (z_max x))].
Definition dump_prior (x : prior_config) : json := Dict
  [(s_ "confounding_effects", Dict (map (fun kv => (fst kv, Dict (map (fun g => (fst g, dump_dirichlet (snd g))) (snd kv)))) (p_confounding x)));
   (s_ "cluster_effect", dump_dirichlet (p_cluster x)); (s_ "geo", dump_geo (p_geo x)); (s_ "objects_per_cluster", dump_size (p_size x));
   (s_ "weights", dump_dirichlet (p_weights x))].
Definition dump_model (x : model_config) : json := Dict
  [(s_ "clusters", match m_clusters x with One k => int k | Many ks => Leaf (Seq (map (fun k => Num (inject_Z k)) ks)) end);
   (s_ "confounders", Dict (map (fun kv => (fst kv, Leaf (Seq (map Str (snd kv))))) (m_confounders x)));
   (s_ "sample_source", Leaf (Bool (m_source x))); (s_ "prior", dump_prior (m_prior x))].
Definition dump_operators (x : operators_config) : json := Dict
  [(s_ "clusters", float (o_clusters x)); (s_ "weights", float (o_weights x)); (s_ "cluster_effect", float (o_cluster_effect x));
   (s_ "confounding_effects", float (o_confounding x)); (s_ "source", float (o_source x))].
Definition dump_mcmc (x : mcmc_config) : json := Dict
  [(s_ "steps", int (c_steps x)); (s_ "samples", int (c_samples x)); (s_ "runs", int (c_runs x)); (s_ "sample_from_prior", Leaf (Bool (c_from_prior x)));
   (s_ "init_objects_per_cluster", int (c_init x)); (s_ "grow_to_adjacent", float (c_grow x)); (s_ "operators", dump_operators (c_operators x));
   (s_ "warmup", Dict [(s_ "warmup_steps", int (w_steps (c_warmup x))); (s_ "warmup_chains", int (w_chains (c_warmup x)))])].
Definition dump_config (x : config) : dict value :=
  [(s_ "data", Dict [(s_ "features", path_text (t_features (s_data x))); (s_ "feature_states", path_text (t_states (s_data x)));
                     (s_ "projection", text (t_projection (s_data x)))]);
   (s_ "model", dump_model (s_model x)); (s_ "mcmc", dump_mcmc (s_mcmc x));
   (s_ "results", Dict [(s_ "path", path_text (r_path (s_results x))); (s_ "log_file", Leaf (Bool (r_log (s_results x))))])].
(** config.py:384-408 -- [from_config_file(path, custom_settings)] with the content of the file as argument ([base]: from the path) *)
Definition from_file (file : dict value) (custom : option (dict value)) : option config :=
  parse_config (match custom with Some c => update_recursive file c | None => file end).
(** cli.py:44-53 -- the settings passed by [runner] *)
Definition run_settings (n_clusters : Z) : dict value :=
  [(s_ "model", Dict [(s_ "clusters", int n_clusters)]); (s_ "mcmc", Dict [(s_ "runs", int 1)])].
(** config.py:410-412 *)
Definition update (x : config) (other : dict value) : option config := parse_config (update_recursive (dump_config x) other).
End Parse.

(** * What the model needs *)
(** prior.py:143-149, 200-210 -- a prior of type dirichlet needs a file, or parameters that are not empty (contents: C69). *)
Definition concentration_given (x : dirichlet) : bool :=
  if str_eqb (d_type x) (s_ "uniform") then true
  else match d_file x, d_parameters x with Some _, _ => true | None, Some (_ :: _) => true | _, _ => false end.
(** prior.py:33-62, 258-264, 300-308 -- creating the priors: effects of clusters and weights have to be uniform *)
Definition build_prior (p : prior_config) : bool :=
  str_eqb (d_type (p_weights p)) (s_ "uniform") && str_eqb (d_type (p_cluster p)) (s_ "uniform") &&
  forallb (fun kv => forallb (fun g => concentration_given (snd g)) (snd kv)) (p_confounding p).
(** prior.py:77-79, 226-236 -- evaluating the priors of the confounding effects for samples with the confounders (and groups) of the
    configuration (load_data.py:240, state.py): keys that are not found raise KeyErrors. *)
Definition evaluate_confounding (m : model_config) : bool :=
  forallb (fun kv =>
    match find (fun c => str_eqb (fst c) (fst kv)) (m_confounders m) with
    | Some c => forallb (fun g => existsb (fun h => str_eqb (fst h) g) (snd kv)) (snd c)
    | None => false
    end) (p_confounding (m_prior m)).
