(** C108: the template of a configuration file (config.py:437-567), read as a configuration file (config.py:369-408). *)
From Coq Require Import QArith Lia.
From Verif Require Import L_config L_text.
From Verif Require Import M_settings S_settings L_settings M_template S_template L_template L_template2.
From Verif Require P_settings M_post.
Import P_settings.
Open Scope nat_scope.

(** A concrete instance: the directory of P_settings, answers for the required places. *)
Definition demo_answer (p : list str) : json :=
  if path_eqb p (path_ ["data"; "features"]%string) then M_template.txt "f.csv"
  else if path_eqb p (path_ ["data"; "feature_states"]%string) then M_template.txt "s.csv"
  else if path_eqb p (path_ ["model"; "prior"; "objects_per_cluster"; "type"]%string) then M_template.txt "uniform_size"
  else Dict [(s_ "family", Dict [(s_ "A", uniform_)])].
Definition demo_choose (p : list str) : choice := if path_eqb p (path_ ["model"; "prior"; "geo"; "rate"]%string) then Null_written else Deleted.
Definition demo_template : dict value := match generate_template true true with Some t => t | None => [] end.

(** In Python up to 3.8 the template can be completed: with answers for the required places, and optional places deleted or null,
    it means the same as a file with the answers only, so all its other values are the defaults. (Missing for the full statement:
    other versions of Python, optional places left as they are, files named from_data, a results directory that cannot be made.) *)
Theorem C108_completed_partial : forall to_int to_float to_bool to_str is_file make_dir base answer choose t, conversions to_int to_float to_bool to_str ->
  generate_template true true = Some t -> is_file (base ++ [s_ "from_data"]) = false -> make_dir (base ++ [s_ "results"]) = true ->
  (forall p, choose p <> Left_as_it_is) ->
  parse_config to_int to_float to_bool to_str is_file make_dir base (completed answer choose t) =
  parse_config to_int to_float to_bool to_str is_file make_dir base (answers_only answer).
Proof.
  intros until t. intros CV G NF MD ST. destruct template_eq as (t' & G' & E). assert (t = t') as -> by congruence. rewrite E. apply read_config; auto.
Qed.
Print Assumptions C108_completed_partial.
Example C108_completed_case : generate_template true true = Some demo_template /\ demo_is_file (demo_base ++ [s_ "from_data"]) = false /\ demo_make (demo_base ++ [s_ "results"]) = true /\
  (forall p, demo_choose p <> Left_as_it_is) /\ completed demo_answer demo_choose demo_template <> answers_only demo_answer /\
  demo_parse (completed demo_answer demo_choose demo_template) = demo_parse (answers_only demo_answer) /\ demo_parse (answers_only demo_answer) <> None.
Proof.
  conj; try (vm_compute; congruence). intros p. unfold demo_choose. destruct (path_eqb _ _); discriminate.
Qed.

(** With files for the data, a type of the size prior and uniform priors for any groups it is accepted, with the documented values. *)
Theorem C108_accepted_partial : forall to_int to_float to_bool to_str is_file make_dir base answer choose t features states type effects, conversions to_int to_float to_bool to_str ->
  generate_template true true = Some t -> is_file (base ++ [s_ "from_data"]) = false -> make_dir (base ++ [s_ "results"]) = true -> (forall p, choose p <> Left_as_it_is) ->
  answer (map s_ ["data"; "features"]%string) = Leaf (Str features) -> is_file (fix_relative_path features base) = true ->
  answer (map s_ ["data"; "feature_states"]%string) = Leaf (Str states) -> is_file (fix_relative_path states base) = true ->
  answer (map s_ ["model"; "prior"; "objects_per_cluster"; "type"]%string) = Leaf (Str type) -> In type (map s_ ["uniform_area"; "uniform_size"; "quadratic"]%string) ->
  answer (map s_ ["model"; "prior"; "confounding_effects"]%string) = Dict (map (fun kv => (fst kv, Dict (map (fun g => (g, Dict [(s_ "type", Leaf (Str (s_ "uniform")))])) (snd kv)))) effects) ->
  exists c, parse_config to_int to_float to_bool to_str is_file make_dir base (completed answer choose t) = Some c /\
    s_data c = {| t_features := fix_relative_path features base; t_states := fix_relative_path states base; t_projection := s_ "epsg:4326" |} /\
    m_clusters (s_model c) = One 1 /\ m_confounders (s_model c) = [] /\ m_source (s_model c) = true /\
    p_size (m_prior (s_model c)) = {| z_type := type; z_min := 2; z_max := 10000 |} /\ g_type (p_geo (m_prior (s_model c))) = s_ "uniform" /\
    map (fun kv => (fst kv, map fst (snd kv))) (p_confounding (m_prior (s_model c))) = effects /\ build_prior (m_prior (s_model c)) = true /\
    c_steps (s_mcmc c) = 1000000%Z /\ c_samples (s_mcmc c) = 1000%Z /\ c_runs (s_mcmc c) = 1%Z /\ c_from_prior (s_mcmc c) = false /\
    r_path (s_results c) = base ++ [s_ "results"].
Proof.
  intros until effects. intros CV G NF MD ST A1 F1 A2 F2 A3 IT A4. rewrite (@C108_completed_partial _ _ _ _ _ _ _ answer choose t CV G NF MD ST).
  apply answers_accepted; auto.
Qed.
Print Assumptions C108_accepted_partial.
Example C108_accepted_case : (exists f s ty eff, demo_answer (map s_ ["data"; "features"]%string) = Leaf (Str f) /\ demo_is_file (fix_relative_path f demo_base) = true /\
    demo_answer (map s_ ["data"; "feature_states"]%string) = Leaf (Str s) /\ demo_is_file (fix_relative_path s demo_base) = true /\
    demo_answer (map s_ ["model"; "prior"; "objects_per_cluster"; "type"]%string) = Leaf (Str ty) /\ In ty (map s_ ["uniform_area"; "uniform_size"; "quadratic"]%string) /\
    demo_answer (map s_ ["model"; "prior"; "confounding_effects"]%string) = Dict (map (fun kv => (fst kv, Dict (map (fun g => (g, Dict [(s_ "type", Leaf (Str (s_ "uniform")))])) (snd kv)))) eff) /\ eff <> []).
Proof. exists (s_ "f.csv"), (s_ "s.csv"), (s_ "uniform_size"), [(s_ "family", [s_ "A"])]. conj; try (vm_compute; congruence). right. left. reflexivity. Qed.

(** The full statement fails. If any optional place is left as it is, the file is refused. *)
Theorem C108_left : forall to_int to_float to_bool to_str is_file make_dir base answer choose t p, conversions to_int to_float to_bool to_str ->
  to_float (Leaf (Str (s_ "<OPTIONAL>"))) = None -> is_file (base ++ [s_ "<OPTIONAL>"]) = false ->
  generate_template true true = Some t -> lookup p (Dict t) = Some (Leaf (Str (s_ "<OPTIONAL>"))) -> choose p = Left_as_it_is ->
  parse_config to_int to_float to_bool to_str is_file make_dir base (completed answer choose t) = None.
Proof.
  intros until p. intros CV NN NO G L C. destruct template_eq as (t' & G' & E). assert (t = t') as -> by congruence. rewrite E.
  eapply left_config; eauto. apply (optional_places G L).
Qed.
Print Assumptions C108_left.
Example C108_left_case : demo_float (Leaf (Str (s_ "<OPTIONAL>"))) = None /\ demo_is_file (demo_base ++ [s_ "<OPTIONAL>"]) = false /\
  lookup (path_ ["model"; "prior"; "weights"; "file"]%string) (Dict demo_template) = Some (Leaf (Str (s_ "<OPTIONAL>"))) /\
  demo_parse (completed demo_answer (fun p => if path_eqb p (path_ ["model"; "prior"; "weights"; "file"]%string) then Left_as_it_is else Deleted) demo_template) = None.
Proof. conj; vm_compute; reflexivity. Qed.
(** In Python 3.9 and later there is no template at all (AssertionError of line 534 for an optional field; from 3.10 on a
    KeyError of line 545 comes first for the priors without annotations of their own); and what is accepted cannot be run: there
    are no confounders, which is a division by zero when the operators are created (C50), and a KeyError for every prior of a
    confounder (C92). *)
Theorem C108_refuted :
  (forall inherited, generate_template false inherited = None) /\ generate_template true false = None /\
  (exists t answer, generate_template true true = Some t /\ demo_parse (completed answer (fun _ => Deleted) t) <> None /\ demo_parse (completed answer (fun _ => Left_as_it_is) t) = None) /\
  (exists t answer c, generate_template true true = Some t /\ demo_parse (completed answer (fun _ => Deleted) t) = Some c /\
     (forall ops, M_post.get_operators (m_source (s_model c)) (map fst (m_confounders (s_model c))) ops = None) /\ evaluate_confounding (s_model c) = false).
Proof.
  conj.
  - intros []; reflexivity.
  - reflexivity.
  - exists demo_template, demo_answer. conj; vm_compute; congruence.
  - exists demo_template, demo_answer. eexists. conj; [reflexivity|vm_compute; reflexivity| |]; intros; vm_compute; reflexivity.
Qed.
Print Assumptions C108_refuted.

(** The template names every setting: what an accepted file contains is in the template, or named by the user (or below
    the frequency of the source operator, which is overwritten unread if sources are not sampled). *)
Theorem C108_names : forall to_int to_float to_bool to_str is_file make_dir base d c t p,
  (forall e, to_int (Dict e) = None /\ to_float (Dict e) = None /\ to_bool (Dict e) = None /\ to_str (Dict e) = None) ->
  generate_template true true = Some t -> wf (Dict d) ->
  parse_config to_int to_float to_bool to_str is_file make_dir base d = Some c -> has_path (Dict d) p ->
  has_path (Dict t) p \/ named_by_user p \/ exists r, p = s_ "mcmc" :: s_ "operators" :: s_ "source" :: r.
Proof. intros until p. intros NC G W H HP. apply (names_complete G). eapply fits_path; [|exact HP]. eapply config_fits; eauto. Qed.
Print Assumptions C108_names.
Example C108_names_case : (forall e, demo_int (Dict e) = None /\ demo_float (Dict e) = None /\ demo_bool (Dict e) = None /\ demo_str (Dict e) = None) /\ demo_parse demo <> None /\
  has_path (Dict demo) (path_ ["model"; "prior"; "geo"; "rate"]%string) /\ has_path (Dict demo_template) (path_ ["model"; "prior"; "geo"; "rate"]%string) /\
  ~ has_path (Dict demo_template) (path_ ["model"; "prior"; "geo"; "speed"]%string).
Proof.
  conj; try reflexivity; try (vm_compute; congruence).
  - intros e. repeat split.
  - unfold path_. cbn [map]. eapply has_node; [find_in|]. eapply has_node; [find_in|]. eapply has_node; [find_in|]. eapply has_node; [find_in|]. exact I.
  - unfold path_. cbn [map]. eapply has_node; [find_in|]. eapply has_node; [find_in|]. eapply has_node; [find_in|]. eapply has_node; [find_in|]. exact I.
  - intros H. assert (G : generate_template true true = Some demo_template) by reflexivity.
    vm_compute in H. repeat match goal with
      | H : exists _, _ |- _ => destruct H as (? & H)
      | H : (_ \/ _) /\ _ |- _ => destruct H as ([H0|H0] & H); [try discriminate H0; injection H0 as <-|]
      | H : False |- _ => destruct H
      | H0 : _ \/ _ |- _ => destruct H0 as [H0|H0]; [try discriminate H0; injection H0 as <-|]
      end; try tauto.
Qed.
