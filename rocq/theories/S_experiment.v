(** What should hold of analyses on a file system. *)
From Coq Require Import QArith.
From Verif Require Export M_experiment S_settings.
Set Implicit Arguments.
Unset Strict Implicit.
Open Scope nat_scope.

(** [q] is [p] or in the directory [p], or further down. *)
Definition below (p q : dir) : Prop := exists r, q = p ++ r.

(** The settings that name input files: values of these keys, at any depth. *)
Definition path_keys : list str := map s_ ["features"; "feature_states"; "costs"; "file"]%string.
Inductive path_value : json -> json -> Prop :=
| value_here d k x : In (k, x) d -> In k path_keys -> path_value (Dict d) x
| value_deep d k y x : In (k, y) d -> path_value y x -> path_value (Dict d) x.
(** All paths in the settings are absolute, and the directory of results is given. *)
Definition absolute_paths (d : dict value) : Prop :=
  (forall s, path_value (Dict d) (Leaf (Str s)) -> is_absolute s = true \/ s = s_ "from_data") /\
  exists r s, get (s_ "results") d = Some (Dict r) /\ get (s_ "path") r = Some (Leaf (Str s)) /\ is_absolute s = true.
(** A name that is one part of a path *)
Definition plain_name (name : str) : Prop := name <> [] /\ is_absolute name = false /\ components name = [name].
(** Nothing is in the way of results in [results], with the directory [results_path] of the settings *)
Definition way_is_free (results results_path : dir) (s : disk) : Prop :=
  (forall q t, below q results \/ below q results_path -> s q <> Some (File t)) /\
  (forall q, below results q -> q <> results -> s q = None /\ ~ below q results_path).


(** Times on a clock, and the minute they are in. *)
Definition valid_time (t : datetime) : Prop :=
  year t < 10 ^ 4 /\ month t <= 12 /\ day t <= 31 /\ hour t < 24 /\ minute t < 60 /\ second t < 60.
Definition same_minute (t u : datetime) : Prop :=
  year t = year u /\ month t = month u /\ day t = day u /\ hour t = hour u /\ minute t = minute u.

(** The four files of run [i] with [k] clusters, and what should be in them. *)
Definition results_file (kind ending : string) (k : Z) (i : nat) : dir :=
  let K := s_ "K" ++ str_Z k in [K; join [underscore] [s_ kind; K; str_nat i] ++ s_ ending].
Definition has_results (results : dir) (from_prior : bool) (k : Z) (i : nat) (o : outputs) (s : disk) : Prop :=
  s (results ++ results_file "stats" ".txt" k i) = Some (File (o_stats o)) /\
  s (results ++ results_file "clusters" ".txt" k i) = Some (File (o_clusters o)) /\
  s (results ++ results_file "operator_stats" ".txt" k i) = Some (File (o_opstats o)) /\
  (from_prior = false -> s (results ++ results_file "likelihood" ".h5" k i) = Some (File (o_likelihood o))).

(** The files that an analysis may write, and the directories it may create. *)
Definition may_write (results : dir) (config_name : str) (runs : nat) (ks : list Z) (p : dir) : Prop :=
  p = results ++ [s_ "experiment.log"] \/ p = results ++ [config_name] \/
  exists k i kind, In k ks /\ i < runs /\ p = results ++ results_file (fst kind) (snd kind) k i /\
    In kind [("stats", ".txt"); ("clusters", ".txt"); ("operator_stats", ".txt"); ("likelihood", ".h5")]%string.
Definition may_create (results results_path : dir) (ks : list Z) (p : dir) : Prop :=
  below p results \/ below p results_path \/ exists k, In k ks /\ p = results ++ [s_ "K" ++ str_Z k].
