(** C40-C42: configurations, command line, results files. *)
From Coq Require FinFun.
From Verif Require Import L_config.
Set Implicit Arguments.
Unset Strict Implicit.

(** * C40 *)
(** Filling in defaults: every user setting is kept; every default is added unless the user has set it or a
    setting on the way to it; nothing else is added; doing it again changes nothing. *)
Theorem C40_set_defaults Setting (cfg default : dict Setting) : wf (Dict default) ->
  (forall p x, setting_at cfg p x -> setting_at (set_defaults cfg default) p x) /\
  (forall p t, lookup p (Dict default) = Some t -> lookup p (Dict cfg) = None -> ~ blocked cfg p ->
     lookup p (Dict (set_defaults cfg default)) = Some t) /\
  (forall p x, setting_at (set_defaults cfg default) p x -> setting_at cfg p x \/ (setting_at default p x /\ lookup p (Dict cfg) = None)) /\
  set_defaults (set_defaults cfg default) default = set_defaults cfg default.
Proof.
  intros Hw. conj.
  - intros p x H. destruct (set_defaults_keeps Hw H) as (t' & Ht & ->). exact Ht.
  - intros p t H Hn Hb. apply set_defaults_adds; auto.
  - intros p x H. apply set_defaults_only; auto.
  - eapply set_defaults_idem; eauto.
Qed.
Print Assumptions C40_set_defaults.

(** Updating: every new setting is in place; everything that is not addressed by the update is kept; there is
    nothing else. *)
Theorem C40_update Setting (cfg new : dict Setting) : wf (Dict new) ->
  (forall p x, setting_at new p x -> setting_at (update_recursive cfg new) p x) /\
  (forall p t, lookup p (Dict cfg) = Some t -> lookup p (Dict new) = None -> ~ blocked new p ->
     lookup p (Dict (update_recursive cfg new)) = Some t) /\
  (forall p x, setting_at (update_recursive cfg new) p x -> setting_at new p x \/ (setting_at cfg p x /\ lookup p (Dict new) = None)).
Proof.
  intros Hw. conj.
  - intros p x H. destruct (update_sets cfg Hw H) as (t' & Ht & ->). exact Ht.
  - intros p t H Hn Hb. apply update_keeps; auto.
  - intros p x H. apply update_only; auto.
Qed.
Print Assumptions C40_update.

(** Iteration yields every setting exactly once, with its location: a required field that is not set is found. *)
Theorem C40_iter Setting (cfg : dict Setting) : wf (Dict cfg) ->
  (forall k x loc, In (k, x, loc) (iter_items_recursive cfg) <-> setting_at cfg (loc ++ [k]) x) /\
  NoDup (map (fun '(k, _, loc) => (k, loc)) (iter_items_recursive cfg)).
Proof.
  intros Hw. split; [|eapply items_NoDup; eauto]. intros k x loc. unfold iter_items_recursive. rewrite (@items_spec _ _ _ eq_refl Hw). split.
  - intros (p & -> & H). exact H.
  - intros H. exists loc. auto.
Qed.
Print Assumptions C40_iter.

Definition demo_user : dict nat := [(s_ "a", Leaf 0); (s_ "b", Dict [(s_ "x", Leaf 0)]); (s_ "c", Leaf 5)].
Definition demo_default : dict nat := [(s_ "b", Dict [(s_ "x", Leaf 1); (s_ "y", Leaf 2)]); (s_ "c", Dict [(s_ "z", Leaf 3)]); (s_ "d", Dict [(s_ "w", Leaf 4)])].
Example C40_demo : wf (Dict demo_default) /\ wf (Dict demo_user) /\
  set_defaults demo_user demo_default =
    [(s_ "a", Leaf 0); (s_ "b", Dict [(s_ "x", Leaf 0); (s_ "y", Leaf 2)]); (s_ "c", Leaf 5); (s_ "d", Dict [(s_ "w", Leaf 4)])] /\
  update_recursive demo_user demo_default =
    [(s_ "a", Leaf 0); (s_ "b", Dict [(s_ "x", Leaf 1); (s_ "y", Leaf 2)]); (s_ "c", Dict [(s_ "z", Leaf 3)]); (s_ "d", Dict [(s_ "w", Leaf 4)])] /\
  lookup [s_ "b"; s_ "y"] (Dict demo_user) = None /\ ~ blocked demo_user [s_ "b"; s_ "y"] /\
  iter_items_recursive demo_default = [(s_ "x", 1, [s_ "b"]); (s_ "y", 2, [s_ "b"]); (s_ "z", 3, [s_ "c"]); (s_ "w", 4, [s_ "d"])].
Proof.
  assert (Hleaf : forall k (x : nat), wf (Dict [(k, Leaf x)])).
  { intros k x. constructor; [simpl; repeat constructor; simpl; tauto|]. intros k' v [E|[]]. injection E as <- <-. constructor. }
  conj; try (vm_compute; reflexivity).
  - constructor; [simpl; repeat constructor; simpl; intuition discriminate|]. intros k v [E|[E|[E|[]]]]; injection E as <- <-; auto.
    constructor; [simpl; repeat constructor; simpl; intuition discriminate|]. intros k v [E|[E|[]]]; injection E as <- <-; constructor.
  - constructor; [simpl; repeat constructor; simpl; intuition discriminate|]. intros k v [E|[E|[E|[]]]]; injection E as <- <-; auto; constructor.
  - intros (q & r & x & E & H). unfold setting_at in H. destruct q as [|k1 [|k2 [|]]]; simpl in E; try discriminate.
    + injection E as <- E. vm_compute in H. discriminate.
    + injection E as <- <- E. vm_compute in H. discriminate.
Qed.

(** * C41 *)
(** Settings passed to [run_experiment] are in force. *)
Theorem C41_run_experiment file custom : wf (Dict custom) ->
  forall p x, setting_at custom p x -> setting_at (from_config_file file (Some custom)) p x.
Proof. intros Hw. apply C40_update, Hw. Qed.
Print Assumptions C41_run_experiment.

Lemma get_in_setting cfg k1 k2 x : setting_at cfg [k1; k2] x -> get_in cfg k1 k2 = Some (Leaf x).
Proof.
  unfold setting_at, get_in. rewrite lookup_cons. destruct (get k1 cfg) as [[y|d]|]; try discriminate. rewrite lookup_cons. destruct (get k2 d) as [v|]; [|discriminate]. intros [= ->]. reflexivity.
Qed.
(** Settings passed to [main] decide which runs are started.  Missing for the full statement: all other
    settings, which do not reach the runs (next theorem). *)
Theorem C41_main_partial file custom runs : main_runs file custom = Some runs ->
  exists ks, cluster_range (from_config_file file custom) = Some ks /\
    map (fun r => (rs_run r, rs_clusters r)) runs = list_prod (seq 0 (n_runs (from_config_file file custom))) ks /\
    forall r, In r runs -> setting_at (rs_config r) [s_ "model"; s_ "clusters"] (Int (rs_clusters r)).
Proof.
  unfold main_runs. destruct (cluster_range _) as [ks|]; [|discriminate]. intros H. injection H as <-. exists ks. conj; auto.
  - rewrite map_map. rewrite <- map_id. apply map_ext. intros (i, k). reflexivity.
  - intros r Hr. apply in_map_iff in Hr. destruct Hr as ((i, k) & <- & _). cbn [rs_config rs_clusters].
    apply (@C41_run_experiment file (runner_settings k)); [|reflexivity].
    unfold runner_settings. constructor; [simpl; repeat constructor; simpl; intuition discriminate|].
    intros k' v [E|[E|[]]]; injection E as <- <-; (constructor; [simpl; repeat constructor; simpl; tauto|]; intros k' v [E|[]]; injection E as <- <-; constructor).
Qed.
Print Assumptions C41_main_partial.

(** If [runs] and [clusters] are among the settings passed to [main], exactly these runs are started; if they are
    only in the file, those of the file; one run if [runs] is nowhere. *)
Theorem C41_runs file custom n ks : wf (Dict custom) ->
  setting_at custom [s_ "mcmc"; s_ "runs"] (Int n) -> setting_at custom [s_ "model"; s_ "clusters"] (Ints ks) ->
  exists runs, main_runs file (Some custom) = Some runs /\ map (fun r => (rs_run r, rs_clusters r)) runs = list_prod (seq 0 n) ks.
Proof.
  intros W Hn Hk. apply (@C41_run_experiment file custom W) in Hn. apply (@C41_run_experiment file custom W) in Hk.
  exists (map (fun '(i, k) => {| rs_run := i; rs_clusters := k; rs_config := from_config_file file (Some (runner_settings k)) |}) (list_prod (seq 0 n) ks)).
  split; [|rewrite map_map; rewrite <- map_id; apply map_ext; intros (i, k); reflexivity].
  unfold main_runs, cluster_range, n_runs. rewrite (get_in_setting Hn), (get_in_setting Hk). reflexivity.
Qed.
Print Assumptions C41_runs.
Theorem C41_runs_file file n k :
  setting_at file [s_ "model"; s_ "clusters"] (Int k) ->
  setting_at file [s_ "mcmc"; s_ "runs"] (Int n) \/ n = 1 /\ lookup [s_ "mcmc"; s_ "runs"] (Dict file) = None ->
  exists runs, main_runs file None = Some runs /\ map (fun r => (rs_run r, rs_clusters r)) runs = map (fun i => (i, k)) (seq 0 n).
Proof.
  intros Hk Hn. exists (map (fun '(i, k) => {| rs_run := i; rs_clusters := k; rs_config := from_config_file file (Some (runner_settings k)) |}) (list_prod (seq 0 n) [k])).
  split.
  - unfold main_runs, cluster_range, n_runs. cbn [from_config_file]. rewrite (get_in_setting Hk). destruct Hn as [Hn|[-> Hn]]; [rewrite (get_in_setting Hn); reflexivity|].
    rewrite lookup_cons in Hn. unfold get_in. destruct (get _ file) as [[x|d]|]; try reflexivity. rewrite lookup_cons in Hn. destruct (get _ d) as [v|]; [discriminate|reflexivity].
  - rewrite map_map. clear. induction (seq 0 n) as [|i l IH]; [reflexivity|]. cbn [list_prod map app]. rewrite IH. reflexivity.
Qed.
Print Assumptions C41_runs_file.

(** Other settings are lost: the runs use the config file only. *)
Definition demo_file : dict setting := [(s_ "model", Dict [(s_ "clusters", Leaf (Ints [2; 3]))]); (s_ "mcmc", Dict [(s_ "steps", Leaf (Int 1000)); (s_ "runs", Leaf (Int 2))])].
Definition demo_custom : dict setting := [(s_ "mcmc", Dict [(s_ "steps", Leaf (Int 10)); (s_ "runs", Leaf (Int 3))])].
Theorem C41_refuted : exists file custom runs r p x, wf (Dict custom) /\ main_runs file (Some custom) = Some runs /\ In r runs /\
  setting_at custom p x /\ p <> [s_ "mcmc"; s_ "runs"] /\ p <> [s_ "model"; s_ "clusters"] /\ ~ setting_at (rs_config r) p x.
Proof.
  exists demo_file, demo_custom. eexists. eexists. exists [s_ "mcmc"; s_ "steps"], (Int 10). conj.
  - constructor; [simpl; repeat constructor; simpl; tauto|]. intros k v [E|[]]; injection E as <- <-.
    constructor; [simpl; repeat constructor; simpl; intuition discriminate|]. intros k v [E|[E|[]]]; injection E as <- <-; constructor.
  - vm_compute. reflexivity.
  - left. reflexivity.
  - reflexivity.
  - discriminate.
  - discriminate.
  - unfold setting_at. vm_compute. discriminate.
Qed.
Print Assumptions C41_refuted.
Example C41_demo : exists runs, main_runs demo_file (Some demo_custom) = Some runs /\
  map (fun r => (rs_run r, rs_clusters r)) runs = [(0, 2); (0, 3); (1, 2); (1, 3); (2, 2); (2, 3)].
Proof. eexists. conj; vm_compute; reflexivity. Qed.

Definition demo_both : dict setting := [(s_ "model", Dict [(s_ "clusters", Leaf (Ints [4; 2]))]); (s_ "mcmc", Dict [(s_ "steps", Leaf (Int 10)); (s_ "runs", Leaf (Int 2))])].
Example C41_runs_case : wf (Dict demo_both) /\ setting_at demo_both [s_ "mcmc"; s_ "runs"] (Int 2) /\ setting_at demo_both [s_ "model"; s_ "clusters"] (Ints [4; 2]) /\
  option_map (map (fun r => (rs_run r, rs_clusters r))) (main_runs demo_file (Some demo_both)) = Some [(0, 4); (0, 2); (1, 4); (1, 2)] /\
  setting_at (runner_settings 5) [s_ "model"; s_ "clusters"] (Int 5) /\ setting_at (runner_settings 5) [s_ "mcmc"; s_ "runs"] (Int 1).
Proof.
  conj; try reflexivity. constructor; [simpl; repeat constructor; simpl; intuition discriminate|]. intros k v [E|[E|[]]]; injection E as <- <-.
  - constructor; [simpl; repeat constructor; simpl; tauto|]. intros k v [E|[]]; injection E as <- <-; constructor.
  - constructor; [simpl; repeat constructor; simpl; intuition discriminate|]. intros k v [E|[E|[]]]; injection E as <- <-; constructor.
Qed.

(** * C42 *)
(** Every combination of run and number of clusters is executed exactly once. *)
Theorem C42_once file custom runs : main_runs file custom = Some runs -> exists ks,
  cluster_range (from_config_file file custom) = Some ks /\
  (NoDup ks -> NoDup (map (fun r => (rs_run r, rs_clusters r)) runs)) /\
  (forall i k, In (i, k) (map (fun r => (rs_run r, rs_clusters r)) runs) <-> i < n_runs (from_config_file file custom) /\ In k ks).
Proof.
  intros H. destruct (C41_main_partial H) as (ks & Hk & Hm & _). exists ks. conj; auto.
  - intros HN. rewrite Hm. generalize (seq_NoDup (n_runs (from_config_file file custom)) 0). generalize (seq 0 (n_runs (from_config_file file custom))).
    induction 1 as [|i l Hi Hl IH]; simpl; [constructor|]. apply NoDup_app'; auto.
    + apply FinFun.Injective_map_NoDup; auto. intros a b E. congruence.
    + intros (a, b) Hin Hin'. apply in_map_iff in Hin. destruct Hin as (c & E & _). injection E as -> ->. apply in_prod_iff in Hin'. tauto.
  - intros i k. rewrite Hm, in_prod_iff, in_seq. split; intros (H1 & H2); split; auto; lia.
Qed.
Print Assumptions C42_once.

(** However the operations of the runs on the file system are interleaved, every results file of a run has the
    content that the run would have produced alone. *)
Theorem C42_schedules file custom runs config_name (trace : nat -> nat -> list (file_id * file_op)) ops :
  main_runs file custom = Some runs ->
  (forall ks, cluster_range (from_config_file file custom) = Some ks -> NoDup ks) ->
  let ops_of := fun r => run_ops config_name (rs_clusters r) (rs_run r) (trace (rs_run r) (rs_clusters r)) in
  interleaving (map ops_of runs) ops ->
  forall r f s, In r runs -> f <> FLog -> f <> FConfig ->
  let p := file_path config_name (rs_clusters r) (rs_run r) f in
  exec ops s p = exec (ops_of r) s p.
Proof.
  intros H HN ops_of Hi r f s Hr Hf1 Hf2 p. destruct (C42_once H) as (ks & Hk & Hnd & _). specialize (Hnd (HN ks Hk)).
  rewrite !exec_filter. f_equal. apply In_nth_error in Hr. destruct Hr as (j & Hj).
  assert (Ej : nth j (map ops_of runs) [] = ops_of r) by (apply nth_error_nth, map_nth_error, Hj).
  rewrite (@interleaving_filter _ (on_path p) _ _ j Hi), Ej; auto.
  intros i Hij. destruct (nth_error runs i) as [r'|] eqn:Hi'.
  2:{ apply nth_error_None in Hi'. rewrite nth_overflow by (rewrite map_length; auto). reflexivity. }
  rewrite (nth_error_nth _ i [] (map_nth_error _ i _ Hi')).
  assert (Hne : ~ (rs_clusters r' = rs_clusters r /\ rs_run r' = rs_run r)).
  { intros (E1 & E2). apply Hij. apply (proj1 (NoDup_nth_error _) Hnd).
    - rewrite map_length. apply nth_error_Some_lt in Hi'. exact Hi'.
    - rewrite !nth_error_map, Hi', Hj. simpl. congruence. }
  unfold ops_of, run_ops. induction (trace (rs_run r') (rs_clusters r')) as [|(f', o) t IH]; simpl; auto.
  destruct (on_path p (file_path config_name (rs_clusters r') (rs_run r') f', o)) eqn:E; auto.
  unfold on_path in E. simpl in E. apply path_eqb_eq in E. unfold p in E. apply path_inj in E; auto. destruct E as (E1 & E2 & _). destruct Hne. auto.
Qed.
Print Assumptions C42_schedules.

(** A run that opens a results file for writing and then appends texts, whatever the other runs do meanwhile:
    the file contains these texts in order, and nothing from before. *)
Theorem C42_content file custom runs config_name (trace : nat -> nat -> list (file_id * file_op)) ops :
  main_runs file custom = Some runs ->
  (forall ks, cluster_range (from_config_file file custom) = Some ks -> NoDup ks) ->
  let ops_of := fun r => run_ops config_name (rs_clusters r) (rs_run r) (trace (rs_run r) (rs_clusters r)) in
  interleaving (map ops_of runs) ops ->
  forall r f s texts, In r runs -> f <> FLog -> f <> FConfig ->
  let p := file_path config_name (rs_clusters r) (rs_run r) f in
  filter (on_path p) (ops_of r) = (p, Truncate) :: map (fun x => (p, Append x)) texts ->
  exec ops s p = Some (concat texts).
Proof.
  intros H HN ops_of Hi r f s texts Hr Hf1 Hf2 p Ht. unfold p. rewrite (C42_schedules H HN Hi s Hr Hf1 Hf2). fold p. rewrite exec_filter. fold (ops_of r). rewrite Ht. cbn [fold_left snd apply_op].
  change (concat texts) with ([] ++ concat texts). generalize (@nil ascii). clear. induction texts as [|x l IH]; intros c; cbn [map fold_left concat snd apply_op]; [rewrite app_nil_r; reflexivity|].
  rewrite IH, app_assoc. reflexivity.
Qed.
Print Assumptions C42_content.
Example C42_content_case : let t := run_ops (s_ "config.json") 2 1 [(FStats, Truncate); (FLog, Append (s_ "two")); (FStats, Append (s_ "a")); (FStats, Append (s_ "b"))] in
  let p := file_path (s_ "config.json") 2 1 FStats in
  filter (on_path p) t = (p, Truncate) :: map (fun x => (p, Append x)) [s_ "a"; s_ "b"] /\ exec t (fun _ => Some (s_ "old")) p = Some (s_ "ab").
Proof. split; vm_compute; reflexivity. Qed.

(** Hence any two schedules give the same results files. *)
Corollary C42_deterministic file custom runs config_name trace ops ops' : main_runs file custom = Some runs ->
  (forall ks, cluster_range (from_config_file file custom) = Some ks -> NoDup ks) ->
  let ops_of := fun r => run_ops config_name (rs_clusters r) (rs_run r) (trace (rs_run r) (rs_clusters r)) in
  interleaving (map ops_of runs) ops -> interleaving (map ops_of runs) ops' ->
  forall r f s, In r runs -> f <> FLog -> f <> FConfig ->
  exec ops s (file_path config_name (rs_clusters r) (rs_run r) f) = exec ops' s (file_path config_name (rs_clusters r) (rs_run r) f).
Proof.
  intros H HN ops_of Hi Hi' r f s Hr Hf1 Hf2.
  rewrite (C42_schedules H HN Hi s Hr Hf1 Hf2), (C42_schedules H HN Hi' s Hr Hf1 Hf2). reflexivity.
Qed.
Print Assumptions C42_deterministic.

(** The log file is shared: its content depends on the schedule. *)
Example C42_log_shared : exists ops ops' : list (path * file_op),
  let t1 := run_ops (s_ "config.json") 2 0 [(FLog, Append (s_ "one")); (FStats, Append (s_ "x"))] in
  let t2 := run_ops (s_ "config.json") 2 1 [(FStats, Truncate); (FLog, Append (s_ "two"))] in
  interleaving [t1; t2] ops /\ interleaving [t1; t2] ops' /\
  exec ops (fun _ => None) [s_ "experiment.log"] <> exec ops' (fun _ => None) [s_ "experiment.log"] /\
  exec ops (fun _ => None) [s_ "K2"; s_ "stats_K2_0.txt"] = Some (s_ "x").
Proof.
  eexists. eexists. cbv zeta. conj.
  - unfold run_ops. cbn [map]. apply (il_cons (l1 := [])). apply (il_cons (l1 := [[_]])). apply (il_cons (l1 := [])). apply (il_cons (l1 := [[]])).
    apply il_nil. repeat constructor.
  - unfold run_ops. cbn [map]. apply (il_cons (l1 := [[_; _]])). apply (il_cons (l1 := [[_; _]])). apply (il_cons (l1 := [])). apply (il_cons (l1 := [])).
    apply il_nil. repeat constructor.
  - vm_compute. discriminate.
  - vm_compute. reflexivity.
Qed.
Example C42_demo : cluster_range (from_config_file demo_file (Some demo_custom)) = Some [2; 3] /\ NoDup [2; 3].
Proof. conj; [vm_compute; reflexivity|]. repeat constructor; simpl; intuition discriminate. Qed.
