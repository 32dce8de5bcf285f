(** C94: a whole analysis on a file system (experiment_setup.py:23-71, cli.py:15-88, mcmc_setup.py:102-120, util.py:219-229, config.py:384-408). *)
From Coq Require Import QArith Lia.
From Verif Require Import M_mcmc S_mcmc P_mcmc L_config L_text P_settings.
From Verif Require Import M_settings S_settings L_settings M_experiment S_experiment L_experiment L_experiment2.
Open Scope nat_scope.

(** * Names of analyses *)
(** Names made from the clock are equal exactly when the minutes are; they are one part of a path. *)
Theorem C94_names :
  (forall t u, valid_time t -> valid_time u -> (set_experiment_name t = set_experiment_name u <-> same_minute t u)) /\
  (forall t, plain_name (experiment_name None t)) /\
  (forall n t, n <> [] -> experiment_name (Some n) t = n).
Proof.
  conj.
  - intros t u T U. split; [apply name_inj; auto|apply same_minute_name].
  - intros t. unfold experiment_name, plain_name. destruct (name_plain t) as (c & n & E & C & A). rewrite C, A. conj; auto. rewrite E. discriminate.
  - intros n t N. unfold experiment_name. destruct n; congruence.
Qed.
Print Assumptions C94_names.
Definition noon : datetime := {| year := 2022; month := 3; day := 9; hour := 12; minute := 5; second := 7; microsecond := 120 |}.
Definition later : datetime := {| year := 2022; month := 3; day := 9; hour := 12; minute := 5; second := 58; microsecond := 0 |}.
Example C94_names_case : valid_time noon /\ set_experiment_name noon = s_ "2022-03-09_12-05" /\ same_minute noon later /\ noon <> later.
Proof. unfold valid_time, same_minute. conj; try reflexivity; try discriminate; try (apply Nat.ltb_lt; vm_compute; reflexivity); try (apply Nat.leb_le; vm_compute; reflexivity). Qed.

Section Statements.
Variable to_int : json -> option Z.
Variable to_float : json -> option Q.
Variable to_bool : json -> option bool.
Variable to_str : json -> option str.
Variable parse : str -> str -> option (dict value).
Variable Random : Type.
Variable analyse : Random -> config -> list (option node) -> nat -> option outputs.
Variable cwd : dir.
Notation from_file := (from_file to_int to_float to_bool to_str).
Notation main := (main to_int to_float to_bool to_str parse analyse cwd).

(** The configuration file [path] with the given content is read as the settings [c]. *)
Definition configured (path : str) (content : str) (d : dict value) (c : config) (s : disk) : Prop :=
  s (fix_relative_path path cwd) = Some (File content) /\ parse (base_name (fix_relative_path path cwd)) content = Some d /\
  from_file (is_file s) (can_make s) (base_directory cwd path) d None = Some c.

(** * What an analysis leaves on the disk *)
Definition analysis_done (r : Random) (name : str) (c : config) (config_name content : str) (s s' : disk) : Prop :=
  let results := fix_relative_path name (r_path (s_results c)) in
  let runs := Z.to_nat (c_runs (s_mcmc c)) in
  (** the settings are kept *)
  s' (results ++ [config_name]) = Some (File content) /\
  (** messages are added to the log *)
  (exists t, s' (results ++ [s_ "experiment.log"]) = Some (File (match s (results ++ [s_ "experiment.log"]) with Some (File old) => old | _ => [] end ++ t))) /\
  (** every run has its own files with what the run on the original inputs gave *)
  (forall i k, i < runs -> In k (clusters_of c) ->
     exists o, analyse r (for_run c k) (map s (input_files c)) i = Some o /\ has_results results (c_from_prior (s_mcmc c)) k i o s') /\
  (** nothing else changes *)
  (forall p, s' p = s p \/ (s p = None /\ s' p = Some Directory /\ may_create results (r_path (s_results c)) (clusters_of c) p) \/
             (may_write results config_name runs (clusters_of c) p /\ exists t, s' p = Some (File t))).
End Statements.

(** Full statement: every analysis that ends without an exception has done this. It holds if the settings are those of the file, the
    configuration and the inputs are not among the results, no number of clusters is repeated and the copy of the configuration has its own name.
    Missing: with other settings given to [main] it is false ([C94_custom_refuted]). *)
Theorem C94_analysis_partial to_int to_float to_bool to_str parse Random analyse cwd :
  conversions to_int to_float to_bool to_str ->
  forall (r : Random) path nm clock s s' content d c,
  let name := experiment_name nm (clock 0) in
  let config_name := base_name (fix_relative_path path cwd) in
  let results := fix_relative_path name (r_path (s_results c)) in
  configured to_int to_float to_bool to_str parse cwd path content d c s ->
  ~ below results (fix_relative_path path cwd) -> (forall f, In f (input_files c) -> ~ below results f) ->
  NoDup (clusters_of c) -> config_name <> s_ "experiment.log" ->
  s (results ++ [config_name]) <> Some Directory -> ~ below (results ++ [config_name]) (r_path (s_results c)) ->
  main to_int to_float to_bool to_str parse analyse cwd r path nm None clock s = Some s' ->
  analysis_done Random analyse r name c config_name content s s'.
Proof.
  intros CV r path nm clock s s' content d c name config_name results (C1 & C2 & C3) Hc Hi ND Hl Hd Hr H.
  assert (Hn : name <> []) by (unfold name, experiment_name; destruct nm as [[|x n]|]; try discriminate; destruct (name_plain (clock 0)) as (x & n & -> & _); discriminate).
  destruct (main_near CV C1 C2 C3 Hc Hi ND Hl Hd Hr H) as (N' & A). unfold analysis_done. conj.
  - apply (n_copy N').
  - apply (n_log N').
  - exact A.
  - apply (n_frame N').
Qed.
Print Assumptions C94_analysis_partial.

(** * Analyses start and end: nothing in the way, the settings accepted and every run without an exception *)
Theorem C94_starts to_int to_float to_bool to_str parse Random analyse cwd :
  conversions to_int to_float to_bool to_str ->
  forall (r : Random) path nm clock s content d c,
  let name := experiment_name nm (clock 0) in
  let config_name := base_name (fix_relative_path path cwd) in
  configured to_int to_float to_bool to_str parse cwd path content d c s ->
  way_is_free (fix_relative_path name (r_path (s_results c))) (r_path (s_results c)) s ->
  config_name <> s_ "experiment.log" -> (forall k, In k (clusters_of c) -> config_name <> s_ "K" ++ str_Z k) ->
  (forall i k, i < Z.to_nat (c_runs (s_mcmc c)) -> In k (clusters_of c) -> analyse r (for_run c k) (map s (input_files c)) i <> None) ->
  exists s', main to_int to_float to_bool to_str parse analyse cwd r path nm None clock s = Some s' /\
    (NoDup (clusters_of c) -> analysis_done Random analyse r name c config_name content s s').
Proof.
  intros CV r path nm clock s content d c name config_name C F L K A.
  destruct C as (C1 & C2 & C3). pose proof F as (F1 & F2).
  assert (Hc : ~ below (fix_relative_path name (r_path (s_results c))) (fix_relative_path path cwd)).
  { apply (free_outside F C1). }
  destruct (@main_works _ _ _ _ CV parse Random analyse cwd path s content d c nm clock r C1 C2 C3 Hc L F K) as (s' & E).
  { intros i k Hi Hk. specialize (A i k Hi Hk). destruct (analyse _ _ _ _) as [o|]; [eauto|congruence]. }
  exists s'. split; auto. intros ND. eapply C94_analysis_partial; eauto.
  - unfold configured. conj; eauto.
  - intros f Hf. assert (X : is_file s f = true) by (eapply (@inputs_are_files _ _ _ _ CV cwd path s d c); eauto). apply is_file_true in X as (t & X). apply (free_outside F X).
  - destruct (F2 (fix_relative_path name (r_path (s_results c)) ++ [config_name])) as (X & _); [apply below_app|apply child_not|]. intros E'. unfold config_name, name in X. congruence.
  - apply (F2 (fix_relative_path name (r_path (s_results c)) ++ [config_name])); [apply below_app|apply child_not].
Qed.
Print Assumptions C94_starts.

(** * Repeating an analysis from the copy of its settings *)
Lemma plain_results name rp : plain_name name -> fix_relative_path name rp = rp ++ [name].
Proof. intros (_ & A & C). unfold fix_relative_path. rewrite A, C. reflexivity. Qed.
Lemma read_again to_int to_float to_bool to_str is is' mk mk' b b' d c :
  absolute_paths d -> (forall p, is p = true -> is' p = true) -> is (b ++ [s_ "from_data"]) = false -> is' (b' ++ [s_ "from_data"]) = false ->
  from_file to_int to_float to_bool to_str is mk b d None = Some c -> mk' (r_path (s_results c)) = true ->
  from_file to_int to_float to_bool to_str is' mk' b' d None = Some c.
Proof.
  intros (A & (res & rs & R1 & R2 & R3)) M N N' H MK. unfold from_file in *. eapply config_same; [|right|exact H|exact MK].
  - intros x X. destruct x as [[| | |t|]|]; try (split; [intros p E; discriminate E|intros y E; discriminate E]).
    destruct (A t X) as [At|At].
    + assert (F : forall p, file_path is b (Leaf (Str t)) = Some p -> file_path is' b' (Leaf (Str t)) = Some p).
      { intros p. unfold file_path, fix_path, fix_relative_path. rewrite At. destruct (is (components t)) eqn:E; [|discriminate]. rewrite (M _ E). auto. }
      split; auto. intros y. unfold costs. destruct (file_path is b (Leaf (Str t))) as [p|]; [rewrite (F p eq_refl); auto|].
      destruct (is_text "from_data" _) eqn:T; [|discriminate]. cbn [is_text] in T. apply str_eqb_eq in T. subst t. discriminate At.
    + subst t. assert (E : file_path is b (Leaf (Str (s_ "from_data"))) = None) by (unfold file_path; cbn [fix_path]; change (fix_relative_path (s_ "from_data") b) with (b ++ [s_ "from_data"]); rewrite N; reflexivity).
      assert (E' : file_path is' b' (Leaf (Str (s_ "from_data"))) = None) by (unfold file_path; cbn [fix_path]; change (fix_relative_path (s_ "from_data") b') with (b' ++ [s_ "from_data"]); rewrite N'; reflexivity).
      split; [rewrite E; discriminate|]. unfold costs. rewrite E, E'. auto.
  - exists res, (Leaf (Str rs)). conj; auto. unfold fix_path, fix_relative_path. rewrite R3. reflexivity.
Qed.
Lemma results_proper to_int to_float to_bool to_str is mk b d c : absolute_paths d -> from_file to_int to_float to_bool to_str is mk b d None = Some c -> proper (r_path (s_results c)).
Proof.
  intros (_ & (res & rs & R1 & R2 & R3)) H. unfold from_file, parse_config in H. destruct (validate_operators d) as [d'|] eqn:V; [|discriminate].
  assert (G : get (s_ "results") d' = get (s_ "results") d).
  { unfold validate_operators in V. destruct (get (s_ "model") d) as [[|m]|]; try discriminate. destruct (get (s_ "sample_source") m) as [x|]; [|discriminate].
    destruct (truthy x); [injection V as <-; reflexivity|]. destruct (get (s_ "mcmc") d) as [[|x']|]; try discriminate. destruct (get (s_ "operators") x') as [[|o]|]; try discriminate.
    injection V as <-. apply get_put_other. discriminate. }
  destruct (required _ (s_ "data") d'); [|discriminate]. destruct (required _ (s_ "model") d'); [|discriminate]. destruct (required _ (s_ "mcmc") d'); [|discriminate].
  unfold optional at 1 in H. rewrite G, R1 in H. unfold section, parse_results, optional in H. rewrite R2 in H. unfold directory_path, fix_path, fix_relative_path in H. rewrite R3 in H.
  destruct (mk (components rs)); [|discriminate]. destruct (match get (s_ "log_file") res with Some _ => _ | None => _ end); [|discriminate].
  unfold guard in H. destruct (only _ res); [|discriminate]. destruct (only _ d'); [|discriminate]. injection H as <-. cbn [s_results r_path]. apply components_proper.
Qed.

(** Full statement: the copy of the settings among the results gives the same results again.
    It holds with absolute paths, the directory of results given, and another name; [C94_repeat_refuted] shows that both are needed. *)
Theorem C94_repeat_partial to_int to_float to_bool to_str parse Random analyse cwd :
  conversions to_int to_float to_bool to_str -> proper cwd ->
  forall (r : Random) path nm nm' clock clock' s content d c,
  let name := experiment_name nm (clock 0) in
  let name' := experiment_name nm' (clock' 0) in
  let config_name := base_name (fix_relative_path path cwd) in
  let results := r_path (s_results c) ++ [name] in
  let results' := r_path (s_results c) ++ [name'] in
  configured to_int to_float to_bool to_str parse cwd path content d c s ->
  absolute_paths d -> is_file s (base_directory cwd path ++ [s_ "from_data"]) = false ->
  plain_name name -> plain_name name' -> name <> name' ->
  way_is_free results (r_path (s_results c)) s -> way_is_free results' (r_path (s_results c)) s ->
  config_name <> s_ "experiment.log" -> (forall k, In k (clusters_of c) -> config_name <> s_ "K" ++ str_Z k) -> NoDup (clusters_of c) ->
  (forall i k, i < Z.to_nat (c_runs (s_mcmc c)) -> In k (clusters_of c) -> analyse r (for_run c k) (map s (input_files c)) i <> None) ->
  exists s1 s2, main to_int to_float to_bool to_str parse analyse cwd r path nm None clock s = Some s1 /\
    main to_int to_float to_bool to_str parse analyse cwd r (show_path (results ++ [config_name])) nm' None clock' s1 = Some s2 /\
    s2 (results' ++ [config_name]) = Some (File content) /\
    forall i k, i < Z.to_nat (c_runs (s_mcmc c)) -> In k (clusters_of c) -> exists o, analyse r (for_run c k) (map s (input_files c)) i = Some o /\
      has_results results (c_from_prior (s_mcmc c)) k i o s2 /\ has_results results' (c_from_prior (s_mcmc c)) k i o s2.
Proof.
  intros CV PW r path nm nm' clock clock' s content d c name name' base results results' C AP ND PN PN' NN FR FR' NL NK NDc AN.
  assert (R : results = fix_relative_path name (r_path (s_results c))) by (symmetry; apply plain_results, PN).
  assert (R' : results' = fix_relative_path name' (r_path (s_results c))) by (symmetry; apply plain_results, PN').
  set (rp := r_path (s_results c)) in *.
  pose proof C as (C1 & C2 & C3). pose proof FR as (F1 & F2). pose proof FR' as (F1' & F2').
  assert (Ld : forall p, below results p -> below results' p -> False).
  { intros p (x & ->) (y & E). unfold results, results' in E. rewrite <- !app_assoc in E. apply app_inv_head in E. injection E as E _. auto. }
  assert (above_results : forall q, below results q -> below q rp -> False).
  { intros q (x & ->) (y & E). unfold results in E. rewrite <- !app_assoc in E. rewrite <- (app_nil_r rp) in E at 1. apply app_inv_head in E. discriminate. }
  destruct (@C94_starts _ _ _ _ parse Random analyse cwd CV r path nm clock s content d c C) as (s1 & E1 & D1); auto.
  { fold name rp. rewrite <- R. exact FR. }
  specialize (D1 NDc). fold name in D1. unfold analysis_done in D1. fold rp in D1. rewrite <- R in D1. cbv zeta in D1. destruct D1 as (D1 & D2 & D3 & D4).
  assert (I1 : forall f, In f (input_files c) -> exists t, s f = Some (File t)).
  { intros f Hf. apply is_file_true. eapply (@inputs_are_files _ _ _ _ CV cwd path s d c); eauto. }
  assert (W : forall p, may_write results base (Z.to_nat (c_runs (s_mcmc c))) (clusters_of c) p -> below results p /\ p <> results).
  { intros p Hp. rewrite R in *. apply (@write_below cwd path c name p Hp). }
  assert (O1 : forall p t, s p = Some (File t) -> s1 p = Some (File t)).
  { intros p t E. assert (B : ~ below results p) by (intros B; destruct (path_eq_dec p results) as [->|Np]; [apply (F1 results t); auto; left; apply below_refl|destruct (F2 p B Np); congruence]).
    destruct (D4 p) as [->|[(X & _)|(X & _)]]; auto; [congruence|]. apply W in X. tauto. }
  assert (no_file : forall q t, below q results' \/ below q rp -> s1 q <> Some (File t)).
  { intros q t Hq E. destruct (D4 q) as [X|[(_ & X & _)|(X & _)]]; [|congruence|].
    - rewrite X in E. apply (F1' q t); auto.
    - apply W in X as (X & _). destruct Hq as [Hq|Hq].
      + apply below_last in Hq as [Hq|Hq].
        * apply (above_results q X Hq).
        * subst q. apply (Ld results' X). apply below_refl.
      + apply (above_results q X Hq). }
  assert (MI : map s1 (input_files c) = map s (input_files c)).
  { apply map_ext_in. intros f Hf. destruct (I1 f Hf) as (t & Et). rewrite Et. apply O1, Et. }
  (* the copy *)
  assert (NE : fix_relative_path path cwd <> []).
  { intros E. rewrite E in C1. apply (F1 [] content); [left; exists results; reflexivity|exact C1]. }
  assert (PR : proper (results ++ [base])).
  { pose proof (@results_proper _ _ _ _ _ _ _ _ _ AP C3) as Pr. fold rp in Pr. unfold results. intros x Hx. apply in_app_iff in Hx as [Hx|[<-|[]]]; [apply in_app_iff in Hx as [Hx|[<-|[]]]; [auto|]|].
    - destruct PN as (_ & _ & PC). apply (@components_proper name). rewrite PC. left. reflexivity.
    - apply (@proper_fix path cwd PW). unfold base, base_name. destruct (exists_last NE) as (l & a & ->). rewrite last_last. apply in_app_iff. right. left. reflexivity. }
  assert (PF : fix_relative_path (show_path (results ++ [base])) cwd = results ++ [base]) by (apply proper_shown, PR).
  assert (PB : base_name (results ++ [base]) = base) by apply last_last.
  assert (C' : configured to_int to_float to_bool to_str parse cwd (show_path (results ++ [base])) content d c s1).
  { unfold configured, base_directory. rewrite PF, PB, removelast_last. conj; auto. eapply (@read_again _ _ _ _ (is_file s) (is_file s1)); [exact AP| |exact ND| |exact C3|].
    - intros p Hp. apply is_file_true in Hp as (t & Hp). apply is_file_true. exists t. apply O1, Hp.
    - unfold is_file. destruct (D4 (results ++ [s_ "from_data"])) as [X|[(_ & X & _)|(X & _)]].
      + rewrite X. destruct (F2 (results ++ [s_ "from_data"])) as (Y & _); [apply below_app|intros E; rewrite <- (app_nil_r results) in E at 2; apply app_inv_head in E; discriminate|]. rewrite Y. reflexivity.
      + rewrite X. reflexivity.
      + exfalso. destruct X as [X|[X|(k & i & kind & _ & _ & X & _)]]; apply app_inv_head in X; try discriminate. injection X as X.
        assert (Y : base_directory cwd path ++ [s_ "from_data"] = fix_relative_path path cwd).
        { change (["f"; "r"; "o"; "m"; "_"; "d"; "a"; "t"; "a"]%char) with (s_ "from_data") in X. rewrite X. unfold base_directory, base, base_name. destruct (exists_last NE) as (l & a & ->). rewrite removelast_last, last_last. reflexivity. }
        rewrite Y in ND. unfold is_file in ND. rewrite C1 in ND. discriminate.
    - unfold can_make. destruct (@makedirs_works (r_path (s_results c)) s1) as (z & ->); [|reflexivity].
      intros q t Hq E. fold rp in Hq. apply (no_file q t); auto. }
  assert (FS : way_is_free results' rp s1).
  { split.
    - intros q t Hq. apply no_file. exact Hq.
    - intros q B N. destruct (F2' q B N) as (X & Y). split; auto. destruct (D4 q) as [Z|[(_ & _ & Z)|(Z & _)]]; [congruence| |].
      + exfalso. destruct Z as [Z|[Z|(k & _ & ->)]]; [|auto|].
        * apply below_last in Z as [Z|Z]; [auto|]. subst q. apply (Ld results); [apply below_refl|exact B].
        * apply (Ld (results ++ [s_ "K" ++ str_Z k])); [apply below_app|exact B].
      + exfalso. apply W in Z as (Z & _). apply (Ld q Z B). }
  destruct (@C94_starts _ _ _ _ parse Random analyse cwd CV r (show_path (results ++ [base])) nm' clock' s1 content d c C') as (s2 & E2 & G).
  { fold name' rp. rewrite <- R'. exact FS. }
  { rewrite PF, PB. exact NL. }
  { rewrite PF, PB. exact NK. }
  { rewrite MI. exact AN. }
  specialize (G NDc). fold name' in G. unfold analysis_done in G. rewrite PF, PB in G. fold rp in G. rewrite <- R' in G. cbv zeta in G. rewrite MI in G. destruct G as (G1 & _ & G3 & G4).
  exists s1, s2. conj; auto. intros i k Hi Hk. destruct (D3 i k Hi Hk) as (o & Eo & Ho). destruct (G3 i k Hi Hk) as (o' & Eo' & Ho').
  rewrite Eo in Eo'. injection Eo' as <-. exists o. conj; auto.
  assert (KP : forall p t, below results p -> s1 p = Some (File t) -> s2 p = Some (File t)).
  { intros p t Bp Ep. destruct (G4 p) as [->|[(X & _)|(X & _)]]; auto; [congruence|]. exfalso. apply (Ld p Bp).
    rewrite R' in X |- *. assert (may_write (fix_relative_path name' rp) base (Z.to_nat (c_runs (s_mcmc c))) (clusters_of c) p) as X' by exact X. apply (@write_below cwd path c name' p X'). }
  unfold has_results in *. destruct Ho as (H1 & H2 & H3 & H4). conj; intros; apply KP; auto; apply below_app.
Qed.
Print Assumptions C94_repeat_partial.
(** * A concrete disk *)
(** Files of settings are named by their content here: A with a relative and B with absolute paths, C as B with one run fewer, D as B, sampling
    from the prior and without a log file. *)
Definition settings (data : string) (extra : dict value) (results : dict value) : dict value :=
  [(s_ "data", Dict [(s_ "features", txt data); (s_ "feature_states", txt "/x/s.csv")]);
   (s_ "model", Dict [(s_ "clusters", two); (s_ "confounders", Dict []); (s_ "sample_source", Leaf (Bool true));
      (s_ "prior", Dict [(s_ "confounding_effects", Dict []); (s_ "cluster_effect", uniform_); (s_ "geo", Dict [(s_ "costs", txt "from_data")]);
         (s_ "objects_per_cluster", Dict [(s_ "type", txt "uniform_size")]); (s_ "weights", uniform_)])]);
   (s_ "mcmc", Dict ([(s_ "steps", Leaf (Num 600)); (s_ "samples", Leaf (Num 3))] ++ extra));
   (s_ "results", Dict results)].
Definition in_y : dict value := [(s_ "path", txt "/y")].
Definition runs_ (n : Q) : dict value := [(s_ "runs", Leaf (Num n))].
Definition read_demo (name content : str) : option (dict value) :=
  if str_eqb content (s_ "A") then Some (settings "f.csv" [] []) else
  if str_eqb content (s_ "B") then Some (settings "/x/f.csv" (runs_ 2) in_y) else
  if str_eqb content (s_ "C") then Some (settings "/x/f.csv" (runs_ 1) in_y) else
  if str_eqb content (s_ "D") then Some (settings "/x/f.csv" ((s_ "sample_from_prior", Leaf (Bool true)) :: runs_ 2) ((s_ "log_file", Leaf (Bool false)) :: in_y)) else None.
Definition demo_dir : dir := [s_ "x"].
Definition demo_disk (content : string) : disk :=
  store [] Directory (store [s_ "x"] Directory (store [s_ "x"; s_ "f.csv"] (File (s_ "1,2")) (store [s_ "x"; s_ "s.csv"] (File (s_ "0,1"))
    (store [s_ "x"; s_ "c.yaml"] (File (s_ content)) (fun _ => None))))).
(** Results that depend on random numbers, settings, inputs and the number of the run *)
Definition text_of (n : option node) : str := match n with Some (File t) => t | _ => [] end.
Definition run_demo (r : nat) (c : config) (inputs : list (option node)) (i : nat) : option outputs :=
  let t := str_nat r ++ str_Z (fold_right Z.add 0%Z (clusters_of c)) ++ str_Z (c_steps (s_mcmc c)) ++ concat (map text_of inputs) ++ str_nat i in
  Some {| o_log := s_ "log" ++ t; o_stats := s_ "stats" ++ t; o_clusters := s_ "clusters" ++ t; o_opstats := s_ "operators" ++ t; o_likelihood := s_ "lh" ++ t |}.
Definition main_demo := main demo_int demo_float demo_bool demo_str read_demo run_demo demo_dir.
Definition at_noon (n : nat) : datetime := noon.
Definition at_later (n : nat) : datetime := later.
Definition done (s : option disk) : disk := match s with Some s => s | None => fun _ => None end.
Lemma done_spec (s : option disk) : (if s then true else false) = true -> s = Some (done s). Proof. destruct s; [reflexivity|discriminate]. Qed.
Ltac runs := unfold main_demo; apply done_spec; vm_compute; reflexivity.


Lemma leaf_no_path v x : path_value (Leaf v) x -> False. Proof. intros H. inversion H. Qed.
Lemma path_value_cases d x : path_value (Dict d) x -> exists k y, In (k, y) d /\ (In k path_keys /\ x = y \/ path_value y x).
Proof. intros H. inversion H; subst; eauto 6. Qed.
Ltac find_paths H := first
  [ apply leaf_no_path in H; destruct H
  | let k := fresh "k" in let y := fresh "y" in let I := fresh "I" in let C := fresh "C" in
    apply path_value_cases in H as (k & y & I & C); cbn [In app] in I;
    repeat (destruct I as [I|I]; [injection I as <- <-; destruct C as [(C & E)|C]; [try (exfalso; vm_compute in C; intuition discriminate)|find_paths C] |]); try destruct I ].
Lemma demo_absolute : absolute_paths (settings "/x/f.csv" (runs_ 2) in_y).
Proof.
  split; [|exists in_y, (s_ "/y"); conj; reflexivity]. intros s H. unfold settings, runs_, in_y, uniform_, txt, two in H. find_paths H; injection E as ->; auto.
Qed.
Example C94_analysis_partial_case : exists d c s', let s := demo_disk "B" in
  configured demo_int demo_float demo_bool demo_str read_demo demo_dir (s_ "c.yaml") (s_ "B") d c s /\
  absolute_paths d /\ Z.to_nat (c_runs (s_mcmc c)) = 2 /\ clusters_of c = [1; 2]%Z /\ r_path (s_results c) = [s_ "y"] /\
  input_files c = [[s_ "x"; s_ "f.csv"]; [s_ "x"; s_ "s.csv"]] /\
  main_demo 7 (s_ "c.yaml") None None at_noon s = Some s' /\
  s' [s_ "y"; s_ "2022-03-09_12-05"; s_ "K2"; s_ "stats_K2_1.txt"] = Some (File (s_ "stats726001,20,11")) /\
  s' [s_ "y"; s_ "2022-03-09_12-05"; s_ "c.yaml"] = Some (File (s_ "B")).
Proof.
  exists (settings "/x/f.csv" (runs_ 2) in_y). eexists. exists (done (main_demo 7 (s_ "c.yaml") None None at_noon (demo_disk "B"))). cbv zeta. conj.
  - unfold configured. conj; vm_compute; reflexivity.
  - exact demo_absolute.
  - reflexivity.
  - reflexivity.
  - reflexivity.
  - reflexivity.
  - runs.
  - vm_compute. reflexivity.
  - vm_compute. reflexivity.
Qed.
Lemma demo_free name : way_is_free ([s_ "y"] ++ [name]) [s_ "y"] (demo_disk "B").
Proof.
  assert (N : forall l, demo_disk "B" (s_ "y" :: l) = None) by (intros l; destruct l as [|? [|? ?]]; reflexivity).
  assert (Y : forall q, below q ([s_ "y"] ++ [name]) -> q = [] \/ exists l, q = s_ "y" :: l).
  { intros q (x & E). destruct q as [|a q]; auto. right. injection E as <- _. eauto. }
  split.
  - intros q t H. assert (X : q = [] \/ exists l, q = s_ "y" :: l).
    { destruct H as [H|H]; [auto|]. apply Y. destruct H as (x & ->). exists (x ++ [name]). rewrite app_assoc. reflexivity. }
    destruct X as [->|(l & ->)]; [discriminate|]. rewrite N. discriminate.
  - intros q (x & ->) H. split; [rewrite <- app_assoc; apply N|]. intros (y & E). rewrite <- !app_assoc in E. discriminate.
Qed.
Example C94_starts_case : forall name, way_is_free ([s_ "y"] ++ [name]) [s_ "y"] (demo_disk "B") /\
  (forall r c inputs i, run_demo r c inputs i <> None) /\ s_ "c.yaml" <> s_ "experiment.log" /\ (forall k, s_ "c.yaml" <> s_ "K" ++ str_Z k).
Proof. intros name. conj; try discriminate. apply demo_free. Qed.
(** All conditions of the repetition are met; the results are the same. *)
Example C94_repeat_partial_case : exists s1 s2,
  main_demo 7 (s_ "c.yaml") None None at_noon (demo_disk "B") = Some s1 /\
  main_demo 7 (s_ "/y/2022-03-09_12-05/c.yaml") (Some (s_ "again")) None at_later s1 = Some s2 /\
  s2 [s_ "y"; s_ "again"; s_ "K2"; s_ "stats_K2_1.txt"] = s2 [s_ "y"; s_ "2022-03-09_12-05"; s_ "K2"; s_ "stats_K2_1.txt"] /\
  s2 [s_ "y"; s_ "again"; s_ "K2"; s_ "stats_K2_1.txt"] <> None /\
  proper demo_dir /\ plain_name (s_ "again") /\ plain_name (s_ "2022-03-09_12-05").
Proof.
  exists (done (main_demo 7 (s_ "c.yaml") None None at_noon (demo_disk "B"))), (done (main_demo 7 (s_ "/y/2022-03-09_12-05/c.yaml") (Some (s_ "again")) None at_later (done (main_demo 7 (s_ "c.yaml") None None at_noon (demo_disk "B"))))). conj.
  - runs.
  - runs.
  - vm_compute. reflexivity.
  - vm_compute. discriminate.
  - intros x [<-|[]]. conj; try discriminate. intros H. vm_compute in H. intuition discriminate.
  - unfold plain_name. conj; try discriminate; reflexivity.
  - unfold plain_name. conj; try discriminate; reflexivity.
Qed.

(** * What does not hold *)
(** The copy of settings with relative paths cannot be used: the files are looked for among the results. With absolute paths it cannot be used
    under the same name: the copy is copied onto itself. *)
Theorem C94_repeat_refuted : exists to_int to_float to_bool to_str parse (analyse : nat -> config -> list (option node) -> nat -> option outputs) cwd,
  conversions to_int to_float to_bool to_str /\
  let run := main to_int to_float to_bool to_str parse analyse cwd in
  (exists s s1, run 7 (s_ "c.yaml") (Some (s_ "one")) None at_noon s = Some s1 /\
     (forall name clock, run 7 (s_ "/x/results/one/c.yaml") name None clock s1 = None) /\
     s1 [s_ "x"; s_ "results"; s_ "one"; s_ "c.yaml"] = s1 [s_ "x"; s_ "c.yaml"] /\ s1 [s_ "x"; s_ "c.yaml"] <> None) /\
  (exists s s1, run 7 (s_ "c.yaml") (Some (s_ "one")) None at_noon s = Some s1 /\
     run 7 (s_ "c.yaml") (Some (s_ "one")) None at_noon s1 <> None /\
     run 7 (s_ "/y/one/c.yaml") (Some (s_ "one")) None at_noon s1 = None).
Proof.
  exists demo_int, demo_float, demo_bool, demo_str, read_demo, run_demo, demo_dir. split; [apply demo_conversions|]. cbv zeta. split.
  - exists (demo_disk "A"), (done (main_demo 7 (s_ "c.yaml") (Some (s_ "one")) None at_noon (demo_disk "A"))). conj.
    + runs.
    + intros name clock. unfold main, experiment. match goal with |- bind (bind ?l _) _ = None => assert (E : l = None) by (vm_compute; reflexivity); rewrite E end. reflexivity.
    + vm_compute. reflexivity.
    + vm_compute. discriminate.
  - exists (demo_disk "B"), (done (main_demo 7 (s_ "c.yaml") (Some (s_ "one")) None at_noon (demo_disk "B"))). conj.
    + runs.
    + intros E. apply (f_equal (fun o : option disk => if o then true else false)) in E. vm_compute in E. discriminate.
    + vm_compute. reflexivity.
Qed.
Print Assumptions C94_repeat_refuted.
(** Two analyses that start in the same minute have the same name: the second replaces the results of the first. *)
Theorem C94_overwrite_refuted : exists to_int to_float to_bool to_str parse (analyse : nat -> config -> list (option node) -> nat -> option outputs) cwd,
  conversions to_int to_float to_bool to_str /\
  let run := main to_int to_float to_bool to_str parse analyse cwd in
  exists t t' s s1 s2 p a b, valid_time t /\ valid_time t' /\ second t <> second t' /\
    run 7 (s_ "c.yaml") None None (fun _ => t) s = Some s1 /\ run 8 (s_ "c.yaml") None None (fun _ => t') s1 = Some s2 /\
    s p = None /\ s1 p = Some (File a) /\ s2 p = Some (File b) /\ a <> b.
Proof.
  exists demo_int, demo_float, demo_bool, demo_str, read_demo, run_demo, demo_dir. split; [apply demo_conversions|]. cbv zeta.
  exists noon, later, (demo_disk "B"), (done (main_demo 7 (s_ "c.yaml") None None (fun _ => noon) (demo_disk "B"))), (done (main_demo 8 (s_ "c.yaml") None None (fun _ => later) (done (main_demo 7 (s_ "c.yaml") None None (fun _ => noon) (demo_disk "B"))))), [s_ "y"; s_ "2022-03-09_12-05"; s_ "K2"; s_ "stats_K2_1.txt"]. eexists. eexists. conj.
  - unfold valid_time. conj; try (apply Nat.ltb_lt; vm_compute; reflexivity); apply Nat.leb_le; vm_compute; reflexivity.
  - unfold valid_time. conj; try (apply Nat.ltb_lt; vm_compute; reflexivity); apply Nat.leb_le; vm_compute; reflexivity.
  - discriminate.
  - runs.
  - runs.
  - vm_compute. reflexivity.
  - vm_compute. reflexivity.
  - vm_compute. reflexivity.
  - discriminate.
Qed.
Print Assumptions C94_overwrite_refuted.
(** The files of an earlier analysis with the same name are not removed: after an analysis with one run there are still files of a second run,
    of the earlier settings. *)
Theorem C94_stale_refuted : exists to_int to_float to_bool to_str parse (analyse : nat -> config -> list (option node) -> nat -> option outputs) cwd,
  conversions to_int to_float to_bool to_str /\
  let run := main to_int to_float to_bool to_str parse analyse cwd in
  exists s s1 d c s2 o, run 7 (s_ "c.yaml") (Some (s_ "one")) None at_noon s = Some s1 /\
    let s1' := store [s_ "x"; s_ "c.yaml"] (File (s_ "C")) s1 in
    configured to_int to_float to_bool to_str parse cwd (s_ "c.yaml") (s_ "C") d c s1' /\ c_runs (s_mcmc c) = 1%Z /\
    run 8 (s_ "c.yaml") (Some (s_ "one")) None at_noon s1' = Some s2 /\ s2 [s_ "y"; s_ "one"; s_ "c.yaml"] = Some (File (s_ "C")) /\
    has_results [s_ "y"; s_ "one"] false 2 1 o s2.
Proof.
  exists demo_int, demo_float, demo_bool, demo_str, read_demo, run_demo, demo_dir. split; [apply demo_conversions|]. cbv zeta.
  exists (demo_disk "B"), (done (main_demo 7 (s_ "c.yaml") (Some (s_ "one")) None at_noon (demo_disk "B"))), (settings "/x/f.csv" (runs_ 1) in_y). eexists. exists (done (main_demo 8 (s_ "c.yaml") (Some (s_ "one")) None at_noon (store [s_ "x"; s_ "c.yaml"] (File (s_ "C")) (done (main_demo 7 (s_ "c.yaml") (Some (s_ "one")) None at_noon (demo_disk "B")))))). eexists {| o_log := []; o_stats := _; o_clusters := _; o_opstats := _; o_likelihood := _ |}. conj.
  - runs.
  - unfold configured. conj; vm_compute; reflexivity.
  - reflexivity.
  - runs.
  - vm_compute. reflexivity.
  - unfold has_results. conj; [..|intros _]; vm_compute; reflexivity.
Qed.
Print Assumptions C94_stale_refuted.
(** A log file is written although the settings say that it should not be. *)
Theorem C94_log_refuted : exists to_int to_float to_bool to_str parse (analyse : nat -> config -> list (option node) -> nat -> option outputs) cwd,
  conversions to_int to_float to_bool to_str /\
  exists s s1 d c t, configured to_int to_float to_bool to_str parse cwd (s_ "c.yaml") (s_ "D") d c s /\ r_log (s_results c) = false /\
    main to_int to_float to_bool to_str parse analyse cwd 7 (s_ "c.yaml") (Some (s_ "one")) None at_noon s = Some s1 /\
    s [s_ "y"; s_ "one"; s_ "experiment.log"] = None /\ s1 [s_ "y"; s_ "one"; s_ "experiment.log"] = Some (File t) /\ t <> [].
Proof.
  exists demo_int, demo_float, demo_bool, demo_str, read_demo, run_demo, demo_dir. split; [apply demo_conversions|].
  exists (demo_disk "D"), (done (main_demo 7 (s_ "c.yaml") (Some (s_ "one")) None at_noon (demo_disk "D"))). eexists. eexists. eexists. conj.
  - unfold configured. conj; [..|vm_compute]; vm_compute; reflexivity.
  - reflexivity.
  - runs.
  - vm_compute. reflexivity.
  - vm_compute. reflexivity.
  - discriminate.
Qed.
Print Assumptions C94_log_refuted.
(** Settings given to [main] besides the file are accepted, but the runs do not use them, except for the numbers of runs and clusters: the number of
    steps is that of the file, and the results are in another directory than the log and the copy of the settings. *)
Definition given : dict value := [(s_ "mcmc", Dict [(s_ "steps", Leaf (Num 900))]); (s_ "results", Dict [(s_ "path", txt "/z")])].
Theorem C94_custom_refuted : exists to_int to_float to_bool to_str parse (analyse : nat -> config -> list (option node) -> nat -> option outputs) cwd,
  conversions to_int to_float to_bool to_str /\
  exists s s1 d c c' o, configured to_int to_float to_bool to_str parse cwd (s_ "c.yaml") (s_ "B") d c s /\
    from_file to_int to_float to_bool to_str (is_file s) (can_make s) (base_directory cwd (s_ "c.yaml")) d (Some given) = Some c' /\
    c_steps (s_mcmc c) = 600%Z /\ c_steps (s_mcmc c') = 900%Z /\ r_path (s_results c') = [s_ "z"] /\
    main to_int to_float to_bool to_str parse analyse cwd 7 (s_ "c.yaml") (Some (s_ "one")) (Some given) at_noon s = Some s1 /\
    s1 [s_ "z"; s_ "one"; s_ "c.yaml"] = Some (File (s_ "B")) /\ s1 [s_ "z"; s_ "one"; s_ "experiment.log"] = Some (File []) /\
    s1 [s_ "z"; s_ "one"; s_ "K2"] = None /\
    analyse 7 (for_run c 2) (map s (input_files c)) 1 = Some o /\ has_results [s_ "y"; s_ "one"] false 2 1 o s1 /\
    analyse 7 (for_run c' 2) (map s (input_files c')) 1 <> Some o.
Proof.
  exists demo_int, demo_float, demo_bool, demo_str, read_demo, run_demo, demo_dir. split; [apply demo_conversions|].
  exists (demo_disk "B"), (done (main_demo 7 (s_ "c.yaml") (Some (s_ "one")) (Some given) at_noon (demo_disk "B"))), (settings "/x/f.csv" (runs_ 2) in_y). eexists. eexists. eexists. conj.
  - unfold configured. conj; vm_compute; reflexivity.
  - vm_compute. reflexivity.
  - reflexivity.
  - reflexivity.
  - reflexivity.
  - runs.
  - vm_compute. reflexivity.
  - vm_compute. reflexivity.
  - vm_compute. reflexivity.
  - vm_compute. reflexivity.
  - unfold has_results. conj; [..|intros _]; vm_compute; reflexivity.
  - vm_compute. discriminate.
Qed.
Print Assumptions C94_custom_refuted.
