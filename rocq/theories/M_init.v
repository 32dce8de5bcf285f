(** Model of the generation of the initial sample, [sbayes/sampling/sbayes_sampling.py] (93-349).

    Random choices are taken from a stream [rnd] of natural numbers: the [t]-th choice from a list [l]
    takes the element number [rnd t mod length l], so that all streams together give all choices. *)
From Verif Require Export M_operators.
Set Implicit Arguments.
Unset Strict Implicit.
Open Scope nat_scope.

(** [random.choice(l)] / [random.sample(l, 1)[0]]; [None] is the exception for an empty list. *)
Definition pick (l : list nat) (r : nat) : option nat := nth_error l (r mod length l).
Definition mark (o : nat) (l : list bool) : list bool := upd o (fun _ => true) l.

Section Init.
(** Number of sites, adjacency matrix, initial size and number of clusters (sbayes_sampling.py:41-57). *)
Variables (n : nat) (adj : bmat) (k n_clusters : nat).
Variable rnd : nat -> nat.

Definition zeros : list bool := repeat false n.
(** sbayes_sampling.py:169-170 -- sites that are still free. *)
Definition free_sites (occ : list bool) : list nat := filter (fun o => negb (nth o occ false)) (seq 0 n).

(** Result of growing one cluster: success or ClusterError, the cluster, the array [already_in_cluster]
    (changed in place, also on failure) and the number of choices made. *)
Record grown := { g_ok : bool; g_cluster : list bool; g_occ : list bool; g_t : nat }.

(** sbayes_sampling.py:180-188 -- the loop over [range(k - 1)]. *)
Fixpoint grow_steps (m t : nat) (cluster occ : list bool) : grown :=
  match m with
  | 0 => {| g_ok := true; g_cluster := cluster; g_occ := occ; g_t := t |}
  | S m' =>
      match pick (nonzero (get_neighbours cluster occ adj)) (rnd t) with
      | None => {| g_ok := false; g_cluster := cluster; g_occ := occ; g_t := t |}
      | Some s => grow_steps m' (S t) (mark s cluster) (mark s occ)
      end
  end.
(** sbayes_sampling.py:150-188 -- [grow_cluster_of_size_k]. *)
Definition grow_cluster (t : nat) (occ : list bool) : grown :=
  match pick (free_sites occ) (rnd t) with
  | None => {| g_ok := false; g_cluster := zeros; g_occ := occ; g_t := t |}
  | Some i => grow_steps (k - 1) (S t) (mark i zeros) (mark i occ)
  end.

(** Local variables of [generate_initial_clusters]. *)
Record istate := { initial_clusters : bmat; occupied : list bool; n_generated : nat; i_t : nat }.

(** sbayes_sampling.py:127-145 -- the for loop over [not_initialized]; [false] if it was left after a
    ClusterError. *)
Fixpoint for_loop (todo : list nat) (st : istate) : bool * istate :=
  match todo with
  | [] => (true, st)
  | i :: todo' =>
      let g := grow_cluster (i_t st) (occupied st) in
      if g_ok g then
        for_loop todo' {| initial_clusters := upd i (fun _ => g_cluster g) (initial_clusters st);
                          occupied := g_occ g; n_generated := S (n_generated st); i_t := g_t g |}
      else (false, {| initial_clusters := initial_clusters st; occupied := g_occ g;
                      n_generated := n_generated st; i_t := g_t g |})
  end.

(** The clusters, or an exception: ValueError (with the local variables at that point) or IndexError. *)
Inductive init_result := Clusters_ok (cl : bmat) | Value_error (st : istate) | Index_error.

(** sbayes_sampling.py:124-148 -- [while True]; [None] if [fuel] iterations are not enough. *)
Fixpoint while_loop (fuel attempts : nat) (not_initialized : list nat) (st : istate) : option init_result :=
  match fuel with
  | 0 => None
  | S fuel' =>
      let (completed, st') := for_loop not_initialized st in
      if completed then
        if n_generated st' =? n_clusters then Some (Clusters_ok (initial_clusters st'))
        else while_loop fuel' attempts not_initialized st'
      else if attempts <? 1000 then
        if n_generated st' =? n_clusters then Some (Clusters_ok (initial_clusters st'))
        else while_loop fuel' (S attempts) (seq (n_generated st') (n_clusters - n_generated st')) st'
      else Some (Value_error st')
  end.

(** sbayes_sampling.py:107-121 -- start: clusters of the previous sample, if any. *)
Definition start (prev : bmat) : istate :=
  {| initial_clusters := prev ++ repeat zeros (n_clusters - length prev);
     occupied := fold_left (map2 orb) prev zeros; n_generated := length prev; i_t := 0 |}.
(** sbayes_sampling.py:93-148 -- [generate_initial_clusters]; [prev = []] without previous sample. *)
Definition generate_initial_clusters (prev : bmat) (fuel : nat) : option init_result :=
  if n_clusters =? 0 then Some (Clusters_ok [])
  else if n_clusters <? length prev then Some Index_error
  else while_loop fuel 0 (seq (length prev) (n_clusters - length prev)) (start prev).
End Init.

Open Scope Q_scope.
(** sbayes_sampling.py:232-252 and 281-299 -- initial effect of one group and feature: the counts of all
    states among the objects of the group, plus one for the applicable states, normalized.  Features
    are boolean (C52: missing values are all false), so [np.nansum] is a count. *)
Definition count_state (features : cube) (group : list bool) (f s : nat) : nat :=
  length (filter (fun o => nth s (nth f (nth o features []) []) false) (nonzero group)).
Definition sites_per_state (features : cube) (group : list bool) (applicable : list bool) (f : nat) : list Q :=
  mapi (fun s (a : bool) => inject_Z (Z.of_nat (count_state features group f s)) + (if a then 1 else 0)) applicable.
Definition initial_effect (features : cube) (group : list bool) (applicable : list (list bool)) : list (option (list Q)) :=
  mapi (fun f app => let c := sites_per_state features group app f in
                     if Qeq_bool (Qsum c) 0 then None else Some (map (fun q => q / Qsum c) c)) applicable.
