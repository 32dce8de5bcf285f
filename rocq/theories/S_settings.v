(** What is expected of the settings of an analysis. *)
From Coq Require Import QArith.
From Verif Require Import M_settings.
Set Implicit Arguments.
Unset Strict Implicit.
Open Scope nat_scope.

(** Values that need no conversion are taken as they are. *)
Record conversions (to_int : json -> option Z) (to_float : json -> option Q) (to_bool : json -> option bool) (to_str : json -> option str) : Prop := {
  ints : forall n, to_int (Leaf (Num (inject_Z n))) = Some n;
  no_int : forall l, to_int (Leaf (Seq l)) = None;
  floats : forall q, to_float (Leaf (Num q)) = Some q;
  bools : forall b, to_bool (Leaf (Bool b)) = Some b;
  texts : forall s, to_str (Leaf (Str s)) = Some s }.

(** Dictionaries of parsed settings *)
Definition at_key A (l : list (str * A)) (k : str) (x : A) : Prop :=
  exists a b, l = a ++ (k, x) :: b /\ ~ In k (map fst a).
(** The Dirichlet priors of a configuration *)
Definition has_prior (c : config) (x : dirichlet) : Prop :=
  x = p_cluster (m_prior (s_model c)) \/ x = p_weights (m_prior (s_model c)) \/
  exists k ps g, In (k, ps) (p_confounding (m_prior (s_model c))) /\ In (g, x) ps.

(** The settings fit together. *)
Record consistent (is_file : dir -> bool) (c : config) : Prop := {
  spacing : (0 < c_steps (s_mcmc c))%Z /\ (0 < c_samples (s_mcmc c))%Z /\ exists k, (c_steps (s_mcmc c) = k * c_samples (s_mcmc c))%Z;
  counts : (0 < c_runs (s_mcmc c))%Z /\ (0 < c_init (s_mcmc c))%Z /\ (0 < w_steps (c_warmup (s_mcmc c)))%Z /\ (0 < w_chains (c_warmup (s_mcmc c)))%Z;
  grow : (0 <= c_grow (s_mcmc c))%Q /\ (c_grow (s_mcmc c) <= 1)%Q;
  frequencies : forall q, In q [o_clusters (c_operators (s_mcmc c)); o_weights (c_operators (s_mcmc c)); o_cluster_effect (c_operators (s_mcmc c));
    o_confounding (c_operators (s_mcmc c)); o_source (c_operators (s_mcmc c))] -> (0 <= q)%Q;
  sizes : (0 < z_min (p_size (m_prior (s_model c))))%Z /\ (0 < z_max (p_size (m_prior (s_model c))))%Z;
  rate : forall q, g_rate (p_geo (m_prior (s_model c))) = Some q -> (0 < q)%Q;
  rate_given : g_type (p_geo (m_prior (s_model c))) = s_ "cost_based" -> g_rate (p_geo (m_prior (s_model c))) <> None;
  (** every group of every confounder has its prior *)
  priors_given : forall k gs, In (k, gs) (m_confounders (s_model c)) -> exists ps, at_key (p_confounding (m_prior (s_model c))) k ps /\
    forall g, In g gs -> exists x, at_key ps g x;
  files : is_file (t_features (s_data c)) = true /\ is_file (t_states (s_data c)) = true /\
    (forall p, g_costs (p_geo (m_prior (s_model c))) = Some p -> is_file p = true) /\
    (forall x p, has_prior c x -> d_file x = Some p -> is_file p = true);
  parameters_given : forall x, has_prior c x -> d_type x = s_ "uniform" \/ d_type x = s_ "dirichlet" /\ (d_file x <> None \/ d_parameters x <> None) }.

(** The default values in the source code, as settings. *)
Definition uniform_prior : json := Dict [(s_ "type", Leaf (Str (s_ "uniform"))); (s_ "file", Leaf Null); (s_ "parameters", Leaf Null)].
Definition documented : dict value :=
  [(s_ "data", Dict [(s_ "projection", Leaf (Str (s_ "epsg:4326")))]);
   (s_ "model", Dict [(s_ "clusters", Leaf (Num 1)); (s_ "confounders", Dict []); (s_ "sample_source", Leaf (Bool true));
      (s_ "prior", Dict [(s_ "cluster_effect", uniform_prior);
         (s_ "geo", Dict [(s_ "type", Leaf (Str (s_ "uniform"))); (s_ "costs", Leaf (Str (s_ "from_data"))); (s_ "aggregation", Leaf (Str (s_ "mean")));
            (s_ "probability_function", Leaf (Str (s_ "exponential"))); (s_ "rate", Leaf Null); (s_ "inflection_point", Leaf Null); (s_ "skeleton", Leaf (Str (s_ "mst")))]);
         (s_ "objects_per_cluster", Dict [(s_ "min", Leaf (Num 2)); (s_ "max", Leaf (Num 10000))]);
         (s_ "weights", uniform_prior)])]);
   (s_ "mcmc", Dict [(s_ "steps", Leaf (Num 1000000)); (s_ "samples", Leaf (Num 1000)); (s_ "runs", Leaf (Num 1)); (s_ "sample_from_prior", Leaf (Bool false));
      (s_ "init_objects_per_cluster", Leaf (Num 5)); (s_ "grow_to_adjacent", Leaf (Num (4 # 5)));
      (s_ "operators", Dict [(s_ "clusters", Leaf (Num 45)); (s_ "weights", Leaf (Num 15)); (s_ "cluster_effect", Leaf (Num 5));
         (s_ "confounding_effects", Leaf (Num 15)); (s_ "source", Leaf (Num 10))]);
      (s_ "warmup", Dict [(s_ "warmup_steps", Leaf (Num 50000)); (s_ "warmup_chains", Leaf (Num 10))])]);
   (s_ "results", Dict [(s_ "log_file", Leaf (Bool true))])].
(** The sections that have no default as a whole, although their settings have, are there. *)
Definition there (d : dict value) (k : string) (c : dict value) : Prop := get (s_ k) d = Some (Dict c).
Definition sections (d model prior mcmc : dict value) : Prop :=
  there d "model" model /\ there model "prior" prior /\ there d "mcmc" mcmc /\
  Forall (fun k => exists c, there prior k c) ["cluster_effect"; "geo"; "weights"]%string.

(** The attributes that apply. *)
Definition applying (x : dirichlet) : dirichlet :=
  if str_eqb (d_type x) (s_ "uniform") then {| d_type := d_type x; d_file := None; d_parameters := None |}
  else match d_file x with Some p => {| d_type := d_type x; d_file := Some p; d_parameters := None |} | None => x end.
Definition applying_priors (p : prior_config) : prior_config :=
  {| p_confounding := map (fun kv => (fst kv, map (fun g => (fst g, applying (snd g))) (snd kv))) (p_confounding p);
     p_cluster := applying (p_cluster p); p_geo := p_geo p; p_size := p_size p; p_weights := applying (p_weights p) |}.
Definition applying_settings (c : config) : config :=
  {| s_data := s_data c;
     s_model := {| m_clusters := m_clusters (s_model c); m_confounders := m_confounders (s_model c); m_source := m_source (s_model c);
                   m_prior := applying_priors (m_prior (s_model c)) |};
     s_mcmc := s_mcmc c; s_results := s_results c |}.

(** The settings of a run with [k] clusters *)
Definition for_run (c : config) (k : Z) : config :=
  {| s_data := s_data c;
     s_model := {| m_clusters := One k; m_confounders := m_confounders (s_model c); m_source := m_source (s_model c); m_prior := m_prior (s_model c) |};
     s_mcmc := {| c_steps := c_steps (s_mcmc c); c_samples := c_samples (s_mcmc c); c_runs := 1; c_from_prior := c_from_prior (s_mcmc c); c_init := c_init (s_mcmc c);
                  c_grow := c_grow (s_mcmc c); c_operators := c_operators (s_mcmc c); c_warmup := c_warmup (s_mcmc c) |};
     s_results := s_results c |}.

(** A directory or file by its components *)
Definition proper (p : dir) : Prop := forall c, In c p -> c <> [] /\ c <> s_ "." /\ ~ In slash c.

(** What the model can work with: uniform priors on weights and cluster effects, concentrations for the others, and priors only for
    confounders that are used *)
Definition usable (c : config) : Prop :=
  d_type (p_weights (m_prior (s_model c))) = s_ "uniform" /\ d_type (p_cluster (m_prior (s_model c))) = s_ "uniform" /\
  (forall k ps g x, In (k, ps) (p_confounding (m_prior (s_model c))) -> In (g, x) ps ->
     d_type x = s_ "uniform" \/ d_file x <> None \/ exists p, d_parameters x = Some p /\ p <> []) /\
  (forall k, In k (map fst (p_confounding (m_prior (s_model c)))) -> In k (map fst (m_confounders (s_model c)))).
