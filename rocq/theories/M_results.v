(** Model of the results reader (results.py:27-91, 137-299): reading the two files of an analysis and unpacking
    the parameters.  The text of numbers is converted by [parse] (pandas); quoting of CSV, the detection of missing
    values and repeated column names are not modelled. *)
From Verif Require Export M_loggers.
Set Implicit Arguments.
Unset Strict Implicit.
Close Scope Q_scope.
Open Scope nat_scope.

(** A data frame of numbers: names of columns, rows. *)
Record table := { t_cols : list str; t_rows : list (list Q) }.
(** [df[name]]: the first column of that name ([None]: KeyError) *)
Fixpoint position (x : str) (l : list str) : option nat :=
  match l with [] => None | y :: r => if str_eqb x y then Some 0 else option_map S (position x r) end.
Definition get_column (t : table) (name : str) : option (list Q) :=
  option_map (fun i => map (fun r => nth i r 0%Q) (t_rows t)) (position name (t_cols t)).
(** [np.column_stack]: ValueError without columns; all columns have [n] entries. *)
Definition column_stack (n : nat) (cols : list (list Q)) : option (list (list Q)) :=
  match cols with [] => None | _ => Some (map (fun i => map (fun c => nth i c 0%Q) cols) (seq 0 n)) end.
(** [{k: f(k) for k in ...}] for distinct keys; an exception in one item ends the loop. *)
Definition dict_of {A B} (key : A -> str) (f : A -> option B) (l : list A) : option (list (str * B)) :=
  all_opt (map (fun a => option_map (fun b => (key a, b)) (f a)) l).

(** results.py:181-188 -- [read_stats]: the first line has the names, blank lines are skipped, all lines must have
    the same number of cells. *)
Definition read_stats (parse : str -> option Q) (content : str) : option table :=
  match split newline content with
  | [] => None
  | header :: lines =>
      let cols := split tab header in
      let read_line l := let cells := split tab l in if length cells =? length cols then all_opt (map parse cells) else None in
      option_map (fun rows => {| t_cols := cols; t_rows := rows |})
        (all_opt (map read_line (filter (fun l : str => match l with [] => false | _ => true end) lines)))
  end.
(** results.py:190-197 -- [read_dictionary] *)
Definition read_dictionary (t : table) (search_key : str) : option (list (str * list Q)) :=
  dict_of (fun c => c) (get_column t) (filter (startswith search_key) (t_cols t)).
(** results.py:199-222 -- [parse_weights] *)
Definition parse_weights (t : table) (confounders features : list str) : option (list (str * list (list Q))) :=
  let components := s_ "areal" :: confounders in
  dict_of (fun f => f) (fun f =>
    match all_opt (map (fun c => get_column t (s_ "w_" ++ c ++ [underscore] ++ f)) components) with
    | None => None
    | Some cols => column_stack (length (t_rows t)) cols
    end) features.
(** results.py:224-247 -- [parse_probs] *)
Definition parse_probs (t : table) (features : list (str * list str)) (prefix : str) : option (list (str * list (list Q))) :=
  dict_of fst (fun fs =>
    match all_opt (map (fun s => get_column t (prefix ++ [underscore] ++ fst fs ++ [underscore] ++ s)) (snd fs)) with
    | None => None
    | Some cols => column_stack (length (t_rows t)) cols
    end) features.
(** results.py:249-264, 266-283 *)
Definition parse_areal_effect (t : table) (features : list (str * list str)) (clusters : list str) :=
  dict_of (fun c => c) (fun c => parse_probs t features (s_ "areal_" ++ c)) clusters.
Definition parse_confounding_effects (t : table) (features : list (str * list str)) (confs : list (str * list str)) :=
  dict_of fst (fun cg => dict_of (fun g => g) (fun g => parse_probs t features (fst cg ++ [underscore] ++ g)) (snd cg)) confs.

Record results := {
  r_clusters : list bmat;                                                 (** clusters x samples x objects *)
  r_confounders : list (str * list str);
  r_cluster_names : list str;
  r_features : list (str * list str);
  r_sample_id : list Z;
  r_weights : list (str * list (list Q));                                 (** feature -> samples x components *)
  r_areal_effect : list (str * list (str * list (list Q)));               (** cluster -> feature -> samples x states *)
  r_confounding_effects : list (str * list (str * list (str * list (list Q))));
  r_posterior : list Q; r_likelihood : list Q; r_prior : list Q;
  r_posterior_single : list (str * list Q); r_likelihood_single : list (str * list Q); r_prior_single : list (str * list Q) }.
Definition obind {A B} (x : option A) (f : A -> option B) : option B := match x with Some a => f a | None => None end.
(** results.py:39-91 -- [__init__] *)
Definition make_results (clusters : list bmat) (parameters : table) (burn_in : Q) : option results :=
  let '(clusters, rows) := drop_burnin clusters (t_rows parameters) burn_in in
  let t := {| t_cols := t_cols parameters; t_rows := rows |} in
  obind (get_groups_by_confounder (t_cols t)) (fun confs =>
  obind (get_cluster_names (t_cols t)) (fun names =>
  obind (hd_error names) (fun name0 =>                                    (** IndexError without clusters *)
  let features := extract_features_and_states (t_cols t) (s_ "areal_" ++ name0) in
  obind (get_column t (s_ "Sample")) (fun ids =>
  obind (parse_weights t (map fst confs) (map fst features)) (fun weights =>
  obind (parse_areal_effect t features names) (fun areal =>
  obind (parse_confounding_effects t features confs) (fun conf =>
  obind (get_column t (s_ "posterior")) (fun posterior =>
  obind (get_column t (s_ "likelihood")) (fun likelihood =>
  obind (get_column t (s_ "prior")) (fun prior =>
  obind (read_dictionary t (s_ "post_")) (fun posts =>
  obind (read_dictionary t (s_ "lh_")) (fun lhs =>
  obind (read_dictionary t (s_ "prior_")) (fun priors =>
    Some {| r_clusters := clusters; r_confounders := confs; r_cluster_names := names; r_features := features;
            r_sample_id := map Qtrunc ids; r_weights := weights; r_areal_effect := areal; r_confounding_effects := conf;
            r_posterior := posterior; r_likelihood := likelihood; r_prior := prior;
            r_posterior_single := posts; r_likelihood_single := lhs; r_prior_single := priors |}))))))))))))).
(** results.py:137-147 -- [from_csv_files], on the contents of the files *)
Definition from_csv_files (parse : str -> option Q) (clusters parameters : str) (burn_in : Q) : option results :=
  obind (read_clusters clusters) (fun cl => obind (read_stats parse parameters) (fun t => make_results cl t burn_in)).
