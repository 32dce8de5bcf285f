(** C92: settings of an analysis (config.py, with util.py:1161-1183 and what prior.py:33-62, 143-149, 200-236, 258-308 needs of them). *)
From Coq Require Import QArith Lia.
From Verif Require Import M_mcmc S_mcmc P_mcmc L_config L_text.
From Verif Require Import M_settings S_settings L_settings.
Open Scope nat_scope.

(** A concrete instance: conversions, files below the directory x, a configuration with two confounders. *)
Definition demo_int (x : json) : option Z := match x with Leaf (Num q) => Some (Z.quot (Qnum q) (Zpos (Qden q))) | _ => None end.
Definition demo_float (x : json) : option Q := match x with Leaf (Num q) => Some q | _ => None end.
Definition demo_bool (x : json) : option bool :=
  match x with
  | Leaf (Bool b) => Some b
  | Leaf (Str s) => if mem s (map s_ ["no"; "false"]%string) then Some false else if mem s (map s_ ["yes"; "true"]%string) then Some true else None
  | _ => None
  end.
Definition demo_str (x : json) : option str := match x with Leaf (Str s) => Some s | _ => None end.
Lemma demo_conversions : conversions demo_int demo_float demo_bool demo_str.
Proof. constructor; try reflexivity. intros n. unfold demo_int. cbn [inject_Z Qnum Qden]. rewrite Z.quot_1_r. reflexivity. Qed.
Definition demo_base : dir := [s_ "x"].
Definition demo_is_file (p : dir) : bool := existsb (fun f => path_eqb p [s_ "x"; s_ f]) ["f.csv"; "s.csv"; "c.json"]%string.
Definition demo_make (p : dir) : bool := true.
Definition demo_parse := parse_config demo_int demo_float demo_bool demo_str demo_is_file demo_make demo_base.
Definition txt (s : string) : json := Leaf (Str (s_ s)).
Definition uniform_ : json := Dict [(s_ "type", txt "uniform")].
Definition demo_with (confounders source : option json) (effects weights : json) (extra : dict value) (size : dict value) (clusters : json) (costs : string) : dict value :=
  [(s_ "data", Dict [(s_ "features", txt "f.csv"); (s_ "feature_states", txt "/x/./s.csv")]);
   (s_ "model", Dict ([(s_ "clusters", clusters)] ++
      match confounders with Some c => [(s_ "confounders", c)] | None => [] end ++
      match source with Some b => [(s_ "sample_source", b)] | None => [] end ++
      [(s_ "prior", Dict [(s_ "confounding_effects", effects); (s_ "cluster_effect", uniform_); (s_ "geo", Dict [(s_ "type", txt "cost_based"); (s_ "rate", Leaf (Num (1 # 2))); (s_ "costs", txt costs)]);
         (s_ "objects_per_cluster", Dict size); (s_ "weights", weights)])]));
   (s_ "mcmc", Dict ([(s_ "steps", Leaf (Num 600)); (s_ "samples", Leaf (Num 3))] ++ extra))].
Definition demo_effects : json := Dict
  [(s_ "family", Dict [(s_ "A", uniform_); (s_ "B", Dict [(s_ "type", txt "dirichlet"); (s_ "parameters", Dict [(s_ "F1", Leaf (Num 1))]); (s_ "file", txt "c.json")])]);
   (s_ "area", Dict [(s_ "all", uniform_)])].
Definition groups_ (l : list string) : json := Leaf (Seq (map (fun g => Str (s_ g)) l)).
Definition demo_confounders : json := Dict [(s_ "family", groups_ ["A"; "B"]%string); (s_ "area", groups_ ["all"]%string)].
Definition demo_size : dict value := [(s_ "type", txt "uniform_size"); (s_ "min", Leaf (Num 3))].
Definition two : json := Leaf (Seq [Num 1; Num 2]).
Definition demo : dict value := demo_with (Some demo_confounders) (Some (Leaf (Bool true))) demo_effects uniform_ [] demo_size two "from_data".

(** Accepted settings fit together: the number of steps is a positive multiple of the number of samples, all counts are positive,
    frequencies of operators are not negative, a cost based prior has a positive rate, every group of every confounder has a
    prior, files exist, Dirichlet priors have parameters or a file. *)
Theorem C92_accepted : forall to_int to_float to_bool to_str is_file make_dir base d c, conversions to_int to_float to_bool to_str ->
  parse_config to_int to_float to_bool to_str is_file make_dir base d = Some c -> consistent is_file c.
Proof. intros until c. intros CV. apply consistency, CV. Qed.
Print Assumptions C92_accepted.
Example C92_accepted_case : exists c, demo_parse demo = Some c /\ m_clusters (s_model c) = Many [1; 2]%Z /\ c_steps (s_mcmc c) = 600%Z /\ c_runs (s_mcmc c) = 1%Z /\
  map fst (m_confounders (s_model c)) = map s_ ["family"; "area"]%string /\ t_states (s_data c) = [s_ "x"; s_ "s.csv"] /\ r_path (s_results c) = [s_ "x"; s_ "results"] /\
  demo_parse (demo_with (Some demo_confounders) (Some (Leaf (Bool true))) demo_effects uniform_ [(s_ "step", Leaf (Num 5))] demo_size two "from_data") = None /\
  demo_parse (demo_with (Some (Dict [(s_ "family", groups_ ["A"; "C"]%string)])) (Some (Leaf (Bool true))) demo_effects uniform_ [] demo_size two "from_data") = None.
Proof. eexists. split; [vm_compute; reflexivity|]. repeat split; vm_compute; reflexivity. Qed.

(** Consequently a run with these settings logs exactly the configured number of samples, evenly spaced (C20). *)
Theorem C92_sampling : forall to_int to_float to_bool to_str is_file make_dir base d c, conversions to_int to_float to_bool to_str ->
  parse_config to_int to_float to_bool to_str is_file make_dir base d = Some c -> c_steps (s_mcmc c) <> 1%Z ->
  forall S ll pr fp n_ops (ss : list S) draws, positive_draws draws -> ss <> [] ->
  let steps := Z.to_nat (c_steps (s_mcmc c)) in let samples := Z.to_nat (c_samples (s_mcmc c)) in
  exists sm obs, generate_samples ll pr fp n_ops ss steps samples draws =
      Ok (sm, combine (seq 0 samples) obs, cold_sample ll pr fp draws (init_sampler ll pr fp n_ops ss) steps) /\ length obs = samples /\
    forall j, (j < samples)%nat -> nth_error obs j = cold_sample ll pr fp draws (init_sampler ll pr fp n_ops ss) (Datatypes.S (j * (steps / samples))).
Proof.
  intros ti tf tb ts isf mk b d c CV H N S ll pr fp n_ops ss draws PD NE steps samples.
  destruct (C92_accepted _ _ _ _ _ _ _ _ _ CV H) as [(P1 & P2 & k & K) _ _ _ _ _ _ _ _ _].
  destruct (C20_samples_partial S ll pr fp n_ops ss draws steps samples) as (sm & obs & G & _ & L & A); auto.
  - unfold valid_spacing, steps, samples. conj; try lia. rewrite <- Z2Nat.inj_mod by lia. rewrite K, Z_mod_mult. reflexivity.
  - unfold steps. lia.
  - exists sm, obs. auto.
Qed.
Print Assumptions C92_sampling.
Example C92_sampling_case : exists c, demo_parse demo = Some c /\ Z.to_nat (c_steps (s_mcmc c)) / Z.to_nat (c_samples (s_mcmc c)) = 200.
Proof. eexists. split; [vm_compute; reflexivity|]. vm_compute. reflexivity. Qed.

(** Settings that are left out have the default values in the source code (missing for the full statement: [confounders],
    [sample_source], and [operators] if sources are not sampled; a file named from_data). *)
Theorem C92_defaults_partial : forall to_int to_float to_bool to_str is_file make_dir base d model prior mcmc source confounders, conversions to_int to_float to_bool to_str ->
  sections d model prior mcmc -> is_file (fix_relative_path (s_ "from_data") base) = false ->
  get (s_ "confounders") model = Some confounders -> get (s_ "sample_source") model = Some source -> (truthy source = true \/ exists o, there mcmc "operators" o) ->
  parse_config to_int to_float to_bool to_str is_file make_dir base (set_defaults d documented) =
  parse_config to_int to_float to_bool to_str is_file make_dir base d.
Proof. intros. eapply defaults_harmless; eauto. Qed.
Print Assumptions C92_defaults_partial.
Example C92_defaults_case : (exists m p c, sections demo m p c /\ get (s_ "confounders") m = Some demo_confounders) /\
  demo_is_file (fix_relative_path (s_ "from_data") demo_base) = false /\ set_defaults demo documented <> demo /\ demo_parse (set_defaults demo documented) = demo_parse demo /\ demo_parse demo <> None.
Proof.
  split; [|repeat split; vm_compute; congruence]. exists (sub demo "model"), (sub (sub demo "model") "prior"), (sub demo "mcmc"). unfold sections, there. split; [|vm_compute; reflexivity].
  repeat split; try (vm_compute; reflexivity). repeat constructor; eexists; vm_compute; reflexivity.
Qed.
(** The full statement fails: a default for [confounders], [sample_source] or [operators] does not help, leaving them out is a
    KeyError; and a file named from_data replaces the default of the costs. *)
Theorem C92_defaults_refuted :
  (exists d, demo_parse d = None /\ demo_parse (put (s_ "model") (Dict (put (s_ "confounders") (Dict []) (sub d "model"))) d) <> None) /\
  (exists d, demo_parse d = None /\ demo_parse (put (s_ "model") (Dict (put (s_ "sample_source") (Leaf (Bool true)) (sub d "model"))) d) <> None) /\
  (exists d, demo_parse d = None /\ demo_parse (put (s_ "mcmc") (Dict (put (s_ "operators") (Dict []) (sub d "mcmc"))) d) <> None) /\
  (exists is_file c, M_settings.parse_config demo_int demo_float demo_bool demo_str is_file demo_make demo_base demo = Some c /\ g_costs (p_geo (m_prior (s_model c))) <> None).
Proof.
  split; [|split; [|split]].
  - exists (demo_with None (Some (Leaf (Bool true))) (Dict []) uniform_ [] demo_size two "from_data"). split; [vm_compute; reflexivity|vm_compute; discriminate].
  - exists (demo_with (Some demo_confounders) None demo_effects uniform_ [] demo_size two "from_data"). split; [vm_compute; reflexivity|vm_compute; discriminate].
  - exists (demo_with (Some demo_confounders) (Some (Leaf (Bool false))) demo_effects uniform_ [] demo_size two "from_data"). split; [vm_compute; reflexivity|vm_compute; discriminate].
  - exists (fun p => demo_is_file p || path_eqb p [s_ "x"; s_ "from_data"]). eexists. split; [vm_compute; reflexivity|vm_compute; discriminate].
Qed.
Print Assumptions C92_defaults_refuted.

(** The runs of an accepted configuration are accepted, and only the number of clusters and of runs changes. *)
Theorem C92_runs : forall to_int to_float to_bool to_str is_file make_dir base file c k, conversions to_int to_float to_bool to_str ->
  from_file to_int to_float to_bool to_str is_file make_dir base file None = Some c ->
  from_file to_int to_float to_bool to_str is_file make_dir base file (Some (run_settings k)) = Some (for_run c k).
Proof. intros until k. intros CV H. apply run_accepted; auto. Qed.
Print Assumptions C92_runs.
Example C92_runs_case : exists c, demo_parse (update_recursive demo (run_settings 2)) = Some c /\ m_clusters (s_model c) = One 2.
Proof. eexists. split; vm_compute; reflexivity. Qed.

(** Relative paths are relative to the directory of the configuration file. *)
Theorem C92_paths : forall cwd path base_dir name s, proper base_dir -> proper cwd -> fix_relative_path path cwd = base_dir ++ [name] ->
  base_directory cwd path = base_dir /\
  (is_absolute s = false -> exists r, proper r /\ fix_relative_path s (base_directory cwd path) = base_dir ++ r) /\
  (forall p, proper p -> fix_relative_path (show_path p) (base_directory cwd path) = p).
Proof.
  intros cwd path b n s PB PC E. assert (B : base_directory cwd path = b) by (unfold base_directory; rewrite E; apply removelast_last). rewrite B. conj; auto.
  - intros A. exists (components s). split; [apply components_proper|]. unfold fix_relative_path. rewrite A. reflexivity.
  - intros p P. apply proper_shown, P.
Qed.
Print Assumptions C92_paths.
Example C92_paths_case : fix_relative_path (s_ "cfg/./a.yaml") [s_ "home"] = [s_ "home"; s_ "cfg"] ++ [s_ "a.yaml"] /\
  fix_relative_path (s_ "d/f.csv") (base_directory [s_ "home"] (s_ "cfg/./a.yaml")) = [s_ "home"; s_ "cfg"; s_ "d"; s_ "f.csv"].
Proof. split; vm_compute; reflexivity. Qed.

(** Updating an accepted configuration with nothing (writing it as a dictionary and reading it again, possibly after another
    configuration file has been read) only removes attributes of priors that do not apply.  Missing for the full statement:
    sources that are not sampled although the source operator is used. *)
Theorem C92_update_partial : forall to_int to_float to_bool to_str is_file make_dir base base' d c, conversions to_int to_float to_bool to_str ->
  proper base -> is_file (fix_relative_path (s_ "from_data") base') = false ->
  parse_config to_int to_float to_bool to_str is_file make_dir base d = Some c -> make_dir (r_path (s_results c)) = true ->
  (m_source (s_model c) = true \/ o_source (c_operators (s_mcmc c)) = 0%Q) ->
  update to_int to_float to_bool to_str is_file make_dir base' c [] = Some (applying_settings c).
Proof. intros. eapply update_nothing; eauto. Qed.
Print Assumptions C92_update_partial.
Example C92_update_case : exists c, demo_parse demo = Some c /\ m_source (s_model c) = true /\ applying_settings c <> c /\
  update demo_int demo_float demo_bool demo_str demo_is_file demo_make [s_ "y"] c [] = Some (applying_settings c).
Proof. eexists. split; [vm_compute; reflexivity|]. split; [reflexivity|]. split; [vm_compute; discriminate|vm_compute; reflexivity]. Qed.
(** With [sample_source: "no"] sources are not sampled, but the frequency of the source operator is not set to zero, and an update
    with nothing changes it. *)
Theorem C92_update_refuted : exists d c c', demo_parse d = Some c /\ m_source (s_model c) = false /\ ~ (o_source (c_operators (s_mcmc c)) == 0)%Q /\
  update demo_int demo_float demo_bool demo_str demo_is_file demo_make demo_base c [] = Some c' /\ (o_source (c_operators (s_mcmc c')) == 0)%Q.
Proof.
  exists (demo_with (Some demo_confounders) (Some (txt "no")) demo_effects uniform_ [] demo_size two "from_data").
  do 2 eexists. split; [vm_compute; reflexivity|]. split; [reflexivity|]. split; [vm_compute; discriminate|]. split; [vm_compute; reflexivity|vm_compute; reflexivity].
Qed.
Print Assumptions C92_update_refuted.

(** Which accepted settings the model can work with (keys of dictionaries are distinct). *)
Theorem C92_model_partial : forall to_int to_float to_bool to_str is_file make_dir base d c, conversions to_int to_float to_bool to_str ->
  parse_config to_int to_float to_bool to_str is_file make_dir base d = Some c ->
  NoDup (map fst (p_confounding (m_prior (s_model c)))) ->
  (build_prior (m_prior (s_model c)) = true /\ evaluate_confounding (s_model c) = true) <-> usable c.
Proof.
  intros ti tf tb ts isf mk b d c CV H ND. assert (C := C92_accepted _ _ _ _ _ _ _ _ _ CV H). unfold build_prior, evaluate_confounding, usable.
  rewrite !andb_true_iff, !str_eqb_eq, !forallb_forall. split.
  - intros (((W & CL) & F) & E). conj; auto.
    + intros k ps g x I J. specialize (F _ I). cbn [snd] in F. rewrite forallb_forall in F. specialize (F _ J). unfold concentration_given in F. cbn [snd] in F.
      destruct (str_eqb (d_type x) (s_ "uniform")) eqn:T; [left; apply str_eqb_eq, T|right]. destruct (d_file x); [left; discriminate|]. right.
      destruct (d_parameters x) as [[|y p]|]; try discriminate. exists (y :: p). split; [auto|discriminate].
    + intros k I. apply in_map_iff in I. destruct I as (kv & <- & I). specialize (E _ I). destruct (find _ _) as [c0|] eqn:FD; [|discriminate].
      apply find_some in FD. destruct FD as (I' & Q). apply str_eqb_eq in Q. rewrite <- Q. apply in_map, I'.
  - intros (W & CL & F & E). conj; auto.
    + intros (k, ps) I. cbn [snd]. apply forallb_forall. intros (g, x) J. cbn [snd]. unfold concentration_given.
      destruct (F k ps g x I J) as [->|[N|(p & -> & N)]]; [reflexivity| |].
      * destruct (str_eqb _ _); auto. destruct (d_file x); [auto|congruence].
      * destruct (str_eqb _ _); auto. destruct (d_file x); auto. destruct p; [congruence|auto].
    + intros (k, ps) I. cbn [fst snd]. destruct (find (fun c0 => str_eqb (fst c0) k) (m_confounders (s_model c))) as [(k', gs)|] eqn:FD.
      * apply find_some in FD. destruct FD as (I' & Q). cbn [fst] in Q. apply str_eqb_eq in Q. subst k'. cbn [snd].
        destruct (priors_given C I') as (ps' & (a & r & Q & N) & G).
        assert (ps' = ps) as ->.
        { rewrite Q in I, ND. apply in_app_iff in I. rewrite map_app in ND. cbn [map fst] in ND. destruct I as [I|[I|I]].
          - exfalso. apply N. apply (in_map fst) in I. exact I.
          - congruence.
          - exfalso. apply NoDup_remove_2 in ND. apply ND. apply in_app_iff. right. apply (in_map fst) in I. exact I. }
        apply forallb_forall. intros g GI. destruct (G g GI) as (x & a' & r' & -> & _). apply existsb_exists. exists (g, x). split; [apply in_app_iff; right; left; auto|apply str_eqb_refl].
      * exfalso. assert (I' := E k (in_map fst _ _ I)). apply in_map_iff in I'. destruct I' as (kv & Q & I'). apply (find_none _ _ FD) in I'. cbn beta in I'. rewrite Q, str_eqb_refl in I'. discriminate.
Qed.
Print Assumptions C92_model_partial.
Example C92_model_case : exists c, demo_parse demo = Some c /\ build_prior (m_prior (s_model c)) = true /\ evaluate_confounding (s_model c) = true.
Proof. eexists. split; [vm_compute; reflexivity|]. split; vm_compute; reflexivity. Qed.
(** Not all accepted settings can be used: Dirichlet priors on the weights (ValueError), parameters without content
    (ValueError), priors for a confounder that is not used (KeyError). *)
Theorem C92_model_refuted :
  (exists d c, demo_parse d = Some c /\ build_prior (m_prior (s_model c)) = false /\ d_type (p_weights (m_prior (s_model c))) = s_ "dirichlet") /\
  (exists d c, demo_parse d = Some c /\ build_prior (m_prior (s_model c)) = false /\ d_type (p_weights (m_prior (s_model c))) = s_ "uniform" /\ d_type (p_cluster (m_prior (s_model c))) = s_ "uniform") /\
  (exists d c, demo_parse d = Some c /\ build_prior (m_prior (s_model c)) = true /\ evaluate_confounding (s_model c) = false).
Proof.
  split; [|split].
  - exists (demo_with (Some demo_confounders) (Some (Leaf (Bool true))) demo_effects (Dict [(s_ "type", txt "dirichlet"); (s_ "file", txt "c.json")]) [] demo_size two "from_data").
    eexists. split; [vm_compute; reflexivity|]. split; vm_compute; reflexivity.
  - exists (demo_with (Some (Dict [])) (Some (Leaf (Bool true))) (Dict [(s_ "area", Dict [(s_ "all", Dict [(s_ "type", txt "dirichlet"); (s_ "parameters", Dict [])])])]) uniform_ [] demo_size two "from_data").
    eexists. split; [vm_compute; reflexivity|]. repeat split; vm_compute; reflexivity.
  - exists (demo_with (Some (Dict [])) (Some (Leaf (Bool true))) demo_effects uniform_ [] demo_size two "from_data").
    eexists. split; [vm_compute; reflexivity|]. split; vm_compute; reflexivity.
Qed.
Print Assumptions C92_model_refuted.
(** Numbers are not compared with each other: a minimal size above the maximal size and a negative number of clusters are accepted. *)
Theorem C92_sizes_refuted : exists d c, demo_parse d = Some c /\ (z_max (p_size (m_prior (s_model c))) < z_min (p_size (m_prior (s_model c))))%Z /\ m_clusters (s_model c) = One (-2).
Proof.
  exists (demo_with (Some demo_confounders) (Some (Leaf (Bool true))) demo_effects uniform_ [] [(s_ "type", txt "uniform_size"); (s_ "min", Leaf (Num 9)); (s_ "max", Leaf (Num 4))] (Leaf (Num (-2))) "from_data").
  eexists. split; [vm_compute; reflexivity|]. split; vm_compute; reflexivity.
Qed.
Print Assumptions C92_sizes_refuted.
