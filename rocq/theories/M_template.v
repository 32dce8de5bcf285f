(** Model of the template of a configuration file: config.py:437-567 (and the shipped config_template.yaml, which it wrote).

    Simplifications: the classes of config.py are described by the records below, written down from their definitions;
    comments, blank lines and the text of the YAML file are not modelled, only the dictionary it contains; the schema of
    line 506 is not used by the program. Exceptions of all kinds are [None]. *)
From Coq Require Import QArith.
From Verif Require Import M_settings.
Set Implicit Arguments.
Unset Strict Implicit.
Open Scope nat_scope.

(** config.py:510-537 -- what is read of a field: a class of settings ([is_config_class(field.type_)]), or the default value, the
    value of the default factory as it is written (a dictionary, or a text), whether the annotation is [Optional[...]], and
    [field.required]. [sc_own]: the class annotates its fields itself (the classes of lines 211-220 inherit them). *)
Inductive schema := Schema (sc_own : bool) (sc_fields : list (string * field))
with field := Sub (s : schema) | Plain (default factory : option json) (is_optional required : bool).

(** A field with a default value, with a default factory, an optional and a required field. *)
Definition given (x : json) : field := Plain (Some x) None false false.
Definition made (x : json) : field := Plain None (Some x) false false.
Definition optional_field : field := Plain None None true false.
Definition required_field : field := Plain None None false true.
Definition txt (s : string) : json := Leaf (Str (s_ s)).

(** config.py:81-131 *)
Definition geo_schema : schema := Schema true
  [("type", given (txt "uniform")); ("costs", given (txt "from_data")); ("aggregation", given (txt "mean")); ("probability_function", given (txt "exponential"));
   ("rate", optional_field); ("inflection_point", optional_field); ("skeleton", given (txt "mst"))]%string.
(** config.py:141-156 *)
Definition size_schema : schema := Schema true [("type", required_field); ("min", given (int 2)); ("max", given (int 10000))]%string.
(** config.py:159-172, 211-220 -- the subclasses of [DirichletPriorConfig] *)
Definition dirichlet_schema : schema := Schema false [("type", given (txt "uniform")); ("file", optional_field); ("parameters", optional_field)]%string.
(** config.py:223-233; the type of [confounding_effects] is a dictionary, not a class of settings *)
Definition prior_schema : schema := Schema true
  [("confounding_effects", required_field); ("cluster_effect", Sub dirichlet_schema); ("geo", Sub geo_schema);
   ("objects_per_cluster", Sub size_schema); ("weights", Sub dirichlet_schema)]%string.
(** config.py:236-250 *)
Definition model_schema : schema := Schema true
  [("clusters", given (int 1)); ("confounders", made (Dict [])); ("sample_source", given (Leaf (Bool true))); ("prior", Sub prior_schema)]%string.
(** config.py:268-285 *)
Definition operators_schema : schema := Schema true
  [("clusters", given (float 45)); ("weights", given (float 15)); ("cluster_effect", given (float 5)); ("confounding_effects", given (float 15)); ("source", given (float 10))]%string.
(** config.py:288-296 *)
Definition warmup_schema : schema := Schema true [("warmup_steps", given (int 50000)); ("warmup_chains", given (int 10))]%string.
(** config.py:299-322 *)
Definition mcmc_schema : schema := Schema true
  [("steps", given (int 1000000)); ("samples", given (int 1000)); ("runs", given (int 1)); ("sample_from_prior", given (Leaf (Bool false)));
   ("init_objects_per_cluster", given (int 5)); ("grow_to_adjacent", given (float (4 # 5))); ("operators", Sub operators_schema); ("warmup", Sub warmup_schema)]%string.
(** config.py:332-343 *)
Definition data_schema : schema := Schema true [("features", required_field); ("feature_states", required_field); ("projection", given (txt "epsg:4326"))]%string.
(** config.py:346-356; [BASE_DIR] is "." when the module is run (lines 31, 570), so the path is written relative to it *)
Definition results_schema : schema := Schema true
  [("path", made (Leaf (Str (join [slash] (components (s_ "./results")))))); ("log_file", given (Leaf (Bool true)))]%string.
(** config.py:369-375 *)
Definition config_schema : schema := Schema true
  [("data", Sub data_schema); ("model", Sub model_schema); ("mcmc", Sub mcmc_schema); ("results", Sub results_schema)]%string.

Section Python.
(** [str(Optional[...])] contains "NoneType": in Python up to 3.8; from 3.9 on it reads "typing.Optional[...]". *)
Variable none_type_shown : bool.
(** [cls.__annotations__] of a class without annotations is that of its base class: in Python up to 3.9; from 3.10 on it is empty. *)
Variable annotations_inherited : bool.

(** config.py:510-537 -- [template_literal] *)
Definition template_literal (default factory : option json) (is_optional required : bool) : option json :=
  match default, factory with
  | Some x, _ => Some x
  | None, Some x => Some x
  | None, None =>
      if is_optional && none_type_shown then if required then None else Some (txt "<OPTIONAL>")
      else if required then Some (txt "<REQUIRED>") else None
  end.

(** config.py:539-550 -- [template]; the annotation of a field that is no class of settings is looked up in the class (KeyError). *)
Fixpoint template (s : schema) : option (dict value) :=
  match s with
  | Schema own fields =>
      (fix entries (l : list (string * field)) : option (dict value) :=
         match l with
         | [] => Some []
         | (k, f) :: r =>
             x <- match f with
                  | Sub s' => option_map (fun d => Dict d) (template s')
                  | Plain default factory is_optional required =>
                      if own || annotations_inherited then template_literal default factory is_optional required else None
                  end;;
             option_map (cons (s_ k, x)) (entries r)
         end) fields
  end.
(** config.py:437-567 -- the dictionary in the text returned by [generate_template] *)
Definition generate_template : option (dict value) := template config_schema.
End Python.
