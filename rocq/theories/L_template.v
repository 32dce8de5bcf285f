(** Lemmas on reading the completed template of a configuration file. *)
From Coq Require Import QArith Lia.
From Verif Require Import L_config L_text.
From Verif Require Import M_settings S_settings L_settings M_template S_template.
Open Scope nat_scope.

Lemma template_cases shown inherited t : generate_template shown inherited = Some t -> generate_template true true = Some t.
Proof. destruct shown, inherited; vm_compute; congruence. Qed.

(** The completed template, section by section. *)
Definition place (k : string) (c : choice) : dict value := match c with Deleted => [] | Null_written => [(s_ k, Leaf Null)] | Left_as_it_is => [(s_ k, txt "<OPTIONAL>")] end.
Definition path_ (l : list string) : list str := map s_ l.
Definition t_dirichlet (choose : list str -> choice) (k : string) : dict value :=
  (s_ "type", txt "uniform") :: place "file" (choose (path_ ["model"; "prior"; k; "file"]%string)) ++ place "parameters" (choose (path_ ["model"; "prior"; k; "parameters"]%string)).
Definition t_geo (choose : list str -> choice) : dict value :=
  [(s_ "type", txt "uniform"); (s_ "costs", txt "from_data"); (s_ "aggregation", txt "mean"); (s_ "probability_function", txt "exponential")] ++
  place "rate" (choose (path_ ["model"; "prior"; "geo"; "rate"]%string)) ++ place "inflection_point" (choose (path_ ["model"; "prior"; "geo"; "inflection_point"]%string)) ++ [(s_ "skeleton", txt "mst")].
Definition t_prior (answer : list str -> json) (choose : list str -> choice) : dict value :=
  [(s_ "confounding_effects", answer (path_ ["model"; "prior"; "confounding_effects"]%string)); (s_ "cluster_effect", Dict (t_dirichlet choose "cluster_effect")); (s_ "geo", Dict (t_geo choose));
   (s_ "objects_per_cluster", Dict [(s_ "type", answer (path_ ["model"; "prior"; "objects_per_cluster"; "type"]%string)); (s_ "min", int 2); (s_ "max", int 10000)]); (s_ "weights", Dict (t_dirichlet choose "weights"))].
Definition t_model (answer : list str -> json) (choose : list str -> choice) : dict value :=
  [(s_ "clusters", int 1); (s_ "confounders", Dict []); (s_ "sample_source", Leaf (Bool true)); (s_ "prior", Dict (t_prior answer choose))].
Definition t_operators : dict value := [(s_ "clusters", float 45); (s_ "weights", float 15); (s_ "cluster_effect", float 5); (s_ "confounding_effects", float 15); (s_ "source", float 10)].
Definition t_mcmc : dict value :=
  [(s_ "steps", int 1000000); (s_ "samples", int 1000); (s_ "runs", int 1); (s_ "sample_from_prior", Leaf (Bool false)); (s_ "init_objects_per_cluster", int 5); (s_ "grow_to_adjacent", float (4 # 5));
   (s_ "operators", Dict t_operators); (s_ "warmup", Dict [(s_ "warmup_steps", int 50000); (s_ "warmup_chains", int 10)])].
Definition t_data (answer : list str -> json) : dict value :=
  [(s_ "features", answer (path_ ["data"; "features"]%string)); (s_ "feature_states", answer (path_ ["data"; "feature_states"]%string)); (s_ "projection", txt "epsg:4326")].
Definition t_config (answer : list str -> json) (choose : list str -> choice) : dict value :=
  [(s_ "data", Dict (t_data answer)); (s_ "model", Dict (t_model answer choose)); (s_ "mcmc", Dict t_mcmc); (s_ "results", Dict [(s_ "path", txt "results"); (s_ "log_file", Leaf (Bool true))])].

Lemma template_eq : exists t, generate_template true true = Some t /\ forall answer choose, completed answer choose t = t_config answer choose.
Proof.
  eexists. split; [vm_compute; reflexivity|]. intros answer choose.
  unfold t_config, t_model, t_prior, t_geo, t_dirichlet, path_.
  remember (choose (map s_ ["model"; "prior"; "cluster_effect"; "file"]%string)) as a eqn:A.
  remember (choose (map s_ ["model"; "prior"; "cluster_effect"; "parameters"]%string)) as b eqn:B.
  remember (choose (map s_ ["model"; "prior"; "weights"; "file"]%string)) as c eqn:C.
  remember (choose (map s_ ["model"; "prior"; "weights"; "parameters"]%string)) as d eqn:D.
  remember (choose (map s_ ["model"; "prior"; "geo"; "rate"]%string)) as e eqn:E.
  remember (choose (map s_ ["model"; "prior"; "geo"; "inflection_point"]%string)) as f eqn:F.
  cbn in A, B, C, D, E, F. unfold completed. cbn.
  rewrite <- A, <- B, <- C, <- D, <- E, <- F. clear A B C D E F.
  repeat match goal with |- _ :: _ = _ :: _ => apply f_equal2 | |- (_, _) = (_, _) => apply f_equal2 | |- Dict _ = Dict _ => apply f_equal end; try reflexivity;
    solve [destruct a, b; reflexivity | destruct e, f; reflexivity | destruct c, d; reflexivity].
Qed.

Section Read.
Variables (to_int : json -> option Z) (to_float : json -> option Q) (to_bool : json -> option bool) (to_str : json -> option str).
Variables (is_file make_dir : dir -> bool) (base : dir).
Hypothesis CV : conversions to_int to_float to_bool to_str.
Variables (answer : list str -> json) (choose : list str -> choice).
Notation parse := (parse_config to_int to_float to_bool to_str is_file make_dir base).

Lemma read_data : parse_data to_str is_file base (t_data answer) =
  parse_data to_str is_file base [(s_ "features", answer (path_ ["data"; "features"]%string)); (s_ "feature_states", answer (path_ ["data"; "feature_states"]%string))].
Proof. unfold parse_data, t_data, required, optional, txt, path_. cbn -[file_path]. rewrite (texts CV). reflexivity. Qed.
Lemma read_size x : parse_size to_int [(s_ "type", x); (s_ "min", int 2); (s_ "max", int 10000)] = parse_size to_int [(s_ "type", x)].
Proof. unfold parse_size, optional, int. unfold required. cbn -[inject_Z positive_int one_of]. rewrite !(num_int CV) by reflexivity. reflexivity. Qed.
Lemma read_mcmc : parse_mcmc to_int to_float to_bool t_mcmc = parse_mcmc to_int to_float to_bool [].
Proof.
  unfold parse_mcmc, t_mcmc, optional, int, float. cbn -[inject_Z positive_int unit_float parse_operators parse_warmup t_operators].
  rewrite !(num_int CV) by reflexivity. rewrite (bools CV). unfold unit_float. rewrite (floats CV). cbn -[inject_Z positive_int parse_operators parse_warmup t_operators].
  unfold parse_operators, t_operators, parse_warmup, optional, float. cbn -[inject_Z positive_int nonneg_float].
  rewrite !(num_nonneg CV) by reflexivity. rewrite !(num_int CV) by reflexivity. reflexivity.
Qed.
Lemma read_dirichlet k : (forall p, choose p <> Left_as_it_is) -> parse_dirichlet is_file base (t_dirichlet choose k) = parse_dirichlet is_file base [].
Proof.
  intros ST. unfold t_dirichlet. assert (A := ST (path_ ["model"; "prior"; k; "file"]%string)). assert (B := ST (path_ ["model"; "prior"; k; "parameters"]%string)).
  destruct (choose (path_ ["model"; "prior"; k; "file"]%string)), (choose (path_ ["model"; "prior"; k; "parameters"]%string)); try congruence; reflexivity.
Qed.
Lemma read_geo : (forall p, choose p <> Left_as_it_is) -> is_file (base ++ [s_ "from_data"]) = false -> parse_geo to_float is_file base (t_geo choose) = parse_geo to_float is_file base [].
Proof.
  intros ST NF. unfold t_geo. assert (A := ST (path_ ["model"; "prior"; "geo"; "rate"]%string)). assert (B := ST (path_ ["model"; "prior"; "geo"; "inflection_point"]%string)).
  assert (C : costs is_file base (txt "from_data") = Some None).
  { unfold costs, file_path, txt, fix_path, fix_relative_path. change (is_absolute (s_ "from_data")) with false. change (components (s_ "from_data")) with [s_ "from_data"]. cbv iota. rewrite NF. reflexivity. }
  unfold parse_geo, optional.
  destruct (choose (path_ ["model"; "prior"; "geo"; "rate"]%string)), (choose (path_ ["model"; "prior"; "geo"; "inflection_point"]%string)); try congruence;
    cbn -[costs]; change (Leaf (Str (s_ "from_data"))) with (txt "from_data"); rewrite C; reflexivity.
Qed.
Lemma read_results : make_dir (base ++ [s_ "results"]) = true ->
  parse_results to_bool make_dir base [(s_ "path", txt "results"); (s_ "log_file", Leaf (Bool true))] = Some (default_results base).
Proof.
  intros MD. unfold parse_results, optional. cbn -[directory_path]. rewrite (bools CV). unfold directory_path, fix_path, txt, fix_relative_path.
  change (is_absolute (s_ "results")) with false. change (components (s_ "results")) with [s_ "results"]. cbv iota. rewrite MD. reflexivity.
Qed.

Lemma read_prior : (forall p, choose p <> Left_as_it_is) -> is_file (base ++ [s_ "from_data"]) = false ->
  parse_prior to_int to_float is_file base (t_prior answer choose) =
  parse_prior to_int to_float is_file base
    [(s_ "confounding_effects", answer (path_ ["model"; "prior"; "confounding_effects"]%string)); (s_ "cluster_effect", Dict []); (s_ "geo", Dict []);
     (s_ "objects_per_cluster", Dict [(s_ "type", answer (path_ ["model"; "prior"; "objects_per_cluster"; "type"]%string))]); (s_ "weights", Dict [])].
Proof.
  intros ST NF. unfold parse_prior, t_prior, required. cbn -[items parse_dirichlet parse_geo parse_size t_dirichlet t_geo path_ int].
  assert (Z := read_size (answer (path_ ["model"; "prior"; "objects_per_cluster"; "type"]%string))). cbn -[parse_size path_ int] in Z.
  rewrite !read_dirichlet, read_geo by auto. rewrite Z. reflexivity.
Qed.
Lemma read_model : (forall p, choose p <> Left_as_it_is) -> is_file (base ++ [s_ "from_data"]) = false ->
  parse_model to_int to_float to_bool to_str is_file base (t_model answer choose) =
  match get (s_ "model") (answers_only answer) with Some (Dict m) => parse_model to_int to_float to_bool to_str is_file base m | _ => None end.
Proof.
  intros ST NF. unfold parse_model, t_model, required, optional. cbn -[parse_prior t_prior path_ parse_clusters inject_Z answers_only].
  unfold parse_clusters, int. rewrite (ints CV), (read_prior ST NF). unfold answers_only. cbn -[parse_prior]. reflexivity.
Qed.
Lemma read_config : (forall p, choose p <> Left_as_it_is) -> is_file (base ++ [s_ "from_data"]) = false -> make_dir (base ++ [s_ "results"]) = true ->
  parse (t_config answer choose) = parse (answers_only answer).
Proof.
  intros ST NF MD. unfold parse_config. change (validate_operators (t_config answer choose)) with (Some (t_config answer choose)).
  change (validate_operators (answers_only answer)) with (Some (answers_only answer)). cbv iota.
  assert (D := read_data). assert (M := read_model ST NF). assert (C := read_mcmc).
  unfold required, optional.
  change (get (s_ "data") (t_config answer choose)) with (Some (Dict (t_data answer) : json)).
  change (get (s_ "model") (t_config answer choose)) with (Some (Dict (t_model answer choose) : json)).
  change (get (s_ "mcmc") (t_config answer choose)) with (Some (Dict t_mcmc : json)).
  change (get (s_ "results") (t_config answer choose)) with (Some (Dict [(s_ "path", txt "results"); (s_ "log_file", Leaf (Bool true))] : json)).
  unfold section at 1 2 3 4. cbv iota. rewrite D, M, C, (read_results MD).
  unfold answers_only. cbn -[parse_data parse_model parse_mcmc default_results]. reflexivity.
Qed.


(** A text that is no number is none, and no file has the name of the marker. *)
Hypothesis NN : to_float (txt "<OPTIONAL>") = None.
Hypothesis NO : is_file (base ++ [s_ "<OPTIONAL>"]) = false.
Lemma no_file_path : file_path is_file base (txt "<OPTIONAL>") = None.
Proof.
  unfold file_path, txt, fix_path, fix_relative_path. change (is_absolute (s_ "<OPTIONAL>")) with false. change (components (s_ "<OPTIONAL>")) with [s_ "<OPTIONAL>"]. cbv iota. rewrite NO. reflexivity.
Qed.
Lemma left_dirichlet k : choose (path_ ["model"; "prior"; k; "file"]%string) = Left_as_it_is \/ choose (path_ ["model"; "prior"; k; "parameters"]%string) = Left_as_it_is ->
  parse_dirichlet is_file base (t_dirichlet choose k) = None.
Proof.
  assert (F := no_file_path). unfold t_dirichlet.
  destruct (choose (path_ ["model"; "prior"; k; "file"]%string)), (choose (path_ ["model"; "prior"; k; "parameters"]%string)); intros [H|H]; try discriminate H;
    unfold parse_dirichlet, optional; cbn -[file_path]; try reflexivity; change (Leaf (Str _)) with (txt "<OPTIONAL>"); rewrite F; reflexivity.
Qed.
Lemma left_geo : choose (path_ ["model"; "prior"; "geo"; "rate"]%string) = Left_as_it_is \/ choose (path_ ["model"; "prior"; "geo"; "inflection_point"]%string) = Left_as_it_is ->
  parse_geo to_float is_file base (t_geo choose) = None.
Proof.
  intros H. unfold parse_geo, t_geo, optional.
  destruct (choose (path_ ["model"; "prior"; "geo"; "rate"]%string)), (choose (path_ ["model"; "prior"; "geo"; "inflection_point"]%string)); destruct H as [H|H]; try discriminate H;
    cbn -[costs]; (destruct (costs _ _ _); [|reflexivity]); unfold positive_float; rewrite NN; reflexivity.
Qed.
Lemma left_config p : In p (map path_ [["model"; "prior"; "cluster_effect"; "file"]; ["model"; "prior"; "cluster_effect"; "parameters"]; ["model"; "prior"; "geo"; "rate"];
    ["model"; "prior"; "geo"; "inflection_point"]; ["model"; "prior"; "weights"; "file"]; ["model"; "prior"; "weights"; "parameters"]]%string) -> choose p = Left_as_it_is ->
  parse (t_config answer choose) = None.
Proof.
  intros IN L.
  assert (P : parse_prior to_int to_float is_file base (t_prior answer choose) = None).
  { unfold parse_prior, t_prior, required. cbn -[items parse_dirichlet parse_geo parse_size t_dirichlet t_geo path_ int only].
    destruct (section _ (answer _)); [|reflexivity].
    destruct (parse_dirichlet is_file base (t_dirichlet choose "cluster_effect")) eqn:E1; [|reflexivity].
    destruct (parse_geo to_float is_file base (t_geo choose)) eqn:E2; [|reflexivity].
    destruct (parse_size _ _); [|reflexivity].
    destruct (parse_dirichlet is_file base (t_dirichlet choose "weights")) eqn:E3; [|reflexivity]. exfalso.
    destruct IN as [<-|[<-|[<-|[<-|[<-|[<-|[]]]]]]];
      (rewrite left_dirichlet in E1 by auto; discriminate E1) || (rewrite left_geo in E2 by auto; discriminate E2) || (rewrite left_dirichlet in E3 by auto; discriminate E3). }
  unfold parse_config. change (validate_operators (t_config answer choose)) with (Some (t_config answer choose)). cbv iota. unfold required.
  change (get (s_ "data") (t_config answer choose)) with (Some (Dict (t_data answer) : json)).
  change (get (s_ "model") (t_config answer choose)) with (Some (Dict (t_model answer choose) : json)).
  unfold section at 1 2. cbv iota. destruct (parse_data _ _ _ _); [|reflexivity].
  assert (parse_model to_int to_float to_bool to_str is_file base (t_model answer choose) = None) as ->; [|reflexivity].
  unfold parse_model, guard, required. destruct (validate_confounder_priors _); [|reflexivity].
  destruct (optional _ _ _ _); [|reflexivity]. destruct (optional _ _ _ _); [|reflexivity]. destruct (optional _ _ _ _); [|reflexivity].
  change (get (s_ "prior") (t_model answer choose)) with (Some (Dict (t_prior answer choose) : json)). unfold section. rewrite P. reflexivity.
Qed.
End Read.
