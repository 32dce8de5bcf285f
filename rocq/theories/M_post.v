(** Model of post-processing (postprocessing.py), of the attributes of a network (preprocessing.py:150-192) and
    of the operator weights (sbayes_sampling.py:365-467). *)
From Coq Require Export QArith Qround.
From Verif Require Export M_model M_text M_loggers.
Set Implicit Arguments.
Unset Strict Implicit.
Open Scope nat_scope.

(** * postprocessing.py:9-25 -- [compute_dic]; floats are exact; [None]: maximum of an empty array *)
Fixpoint max_q (x : Q) (l : list Q) : Q := match l with [] => x | y :: r => let m := max_q y r in if Qle_bool x m then m else x end.
Definition mean_q (l : list Q) : Q := (Qsum l / inject_Z (Z.of_nat (length l)))%Q.
Definition compute_dic (lh : list Q) (burn_in : Q) : option Q :=
  let end_bi := Qceiling (inject_Z (Z.of_nat (length lh)) * burn_in) in
  match slice_from end_bi lh with
  | [] => None
  | x :: r => let d_phi_pm := (-(2) * max_q x r)%Q in
              let mean_d_phi := (-(4) * mean_q (x :: r))%Q in
              Some (mean_d_phi + d_phi_pm)%Q
  end.

(** * Collections of samples: for every sample, the values per cluster. *)
Record samples (A B C : Type) := {
  sm_clusters : list (list A);        (** samples['sample_clusters'] *)
  sm_effect : list (list B);          (** samples['sample_cluster_effect'] *)
  sm_lh : list (list C);              (** samples['sample_lh_single_cluster'] *)
  sm_prior : list (list C);           (** samples['sample_prior_single_cluster'] *)
  sm_post : list (list C) }.          (** samples['sample_posterior_single_cluster'] *)
(** Indexing by a list of indices; [None]: IndexError. *)
Definition take {A} (p : list nat) (l : list A) : option (list A) := all_opt (map (fun i => nth_error l i) p).
(** [[l[s][m[s]] for s in range(len(l))]] for a list of permutations [m] *)
Definition take_each {A} (m : list (list nat)) (l : list (list A)) : option (list (list A)) :=
  all_opt (mapi (fun s x => match nth_error m s with Some p => take p x | None => None end) l).
(** postprocessing.py:28-79 -- [match_clusters]: the loop of lines 41-43 computes permutations but does not
    append them to [matching_list], which stays empty.  Without samples, line 35 raises ValueError. *)
Fixpoint match_loop (cs : list bmat) (s_sum : list (list nat)) (matching_list : list (list nat)) : list (list nat) :=
  match cs with
  | [] => matching_list
  | s :: r => let permutation := get_best_permutation s s_sum in
              match_loop r (map2 (fun c n => map2 (fun (b : bool) m => m + (if b then 1 else 0)) c n) (permute [] permutation s) s_sum) matching_list
  end.
Definition match_clusters {B C} (x : samples (list bool) B C) : option (samples (list bool) B C) :=
  match sm_clusters x with
  | [] => None
  | s0 :: _ =>
      let matching_list := match_loop (sm_clusters x) (map (map (fun _ => 0)) s0) [] in
      match take_each matching_list (sm_clusters x), take_each matching_list (sm_effect x), take_each matching_list (sm_lh x),
            take_each matching_list (sm_prior x), take_each matching_list (sm_post x) with
      | Some a, Some b, Some c, Some d, Some e => Some {| sm_clusters := a; sm_effect := b; sm_lh := c; sm_prior := d; sm_post := e |}
      | _, _, _, _, _ => None
      end
  end.

(** postprocessing.py:133-182 -- [rank_clusters].  [np.argsort] as a stable insertion sort (numpy's order of
    equal keys is unspecified). *)
Fixpoint insert_by (key : nat -> Q) (i : nat) (l : list nat) : list nat :=
  match l with
  | [] => [i]
  | j :: r => if Qle_bool (key i) (key j) then i :: l else j :: insert_by key i r
  end.
Definition argsort (keys : list Q) : list nat := fold_right (insert_by (fun i => nth i keys 0%Q)) [] (seq 0 (length keys)).
(** Mean over the samples; the array must be rectangular and non-empty. *)
Definition mean_columns (rows : list (list Q)) : option (list Q) :=
  match rows with
  | [] => None
  | r0 :: _ => let k := length r0 in
               if forallb (fun r => length r =? k) rows
               then Some (map (fun i => mean_q (map (fun r => nth i r 0%Q) rows)) (seq 0 k))
               else None
  end.
Definition rank_clusters {A B} (x : samples A B Q) : option (samples A B Q) :=
  match mean_columns (sm_post x) with
  | None => None
  | Some to_rank =>
      let ranked := argsort (map Qopp to_rank) in
      let all T (l : list (list T)) := all_opt (map (take ranked) l) in
      match all _ (sm_clusters x), all _ (sm_lh x), all _ (sm_prior x), all _ (sm_post x), all _ (sm_effect x) with
      | Some a, Some c, Some d, Some e, Some b => Some {| sm_clusters := a; sm_effect := b; sm_lh := c; sm_prior := d; sm_post := e |}
      | _, _, _, _, _ => None
      end
  end.

(** * preprocessing.py:150-192 -- attributes of [ComputeNetwork]; values of any type *)
Record network (V : Type) := { nw_vertices : V; nw_edges : V; nw_locations : V; nw_names : V; nw_adj_mat : V; nw_n : V; nw_m : V; nw_dist_mat : V }.
Definition nw_get {V} (w : network V) (key : str) : option V :=
  if str_eqb key (s_ "vertices") then Some (nw_vertices w)
  else if str_eqb key (s_ "edges") then Some (nw_edges w)
  else if str_eqb key (s_ "locations") then Some (nw_locations w)
  else if str_eqb key (s_ "names") then Some (nw_names w)
  else if str_eqb key (s_ "adj_mat") then Some (nw_adj_mat w)
  else if str_eqb key (s_ "n") then Some (nw_n w)
  else if str_eqb key (s_ "m") then Some (nw_m w)
  else if str_eqb key (s_ "dist_mat") then Some (nw_dist_mat w)
  else None.
Definition nw_set {V} (w : network V) (key : str) (v : V) : option (network V) :=
  let '(Build_network a b c d e f g h) := w in
  if str_eqb key (s_ "vertices") then Some (Build_network v b c d e f g h)
  else if str_eqb key (s_ "edges") then Some (Build_network a v c d e f g h)
  else if str_eqb key (s_ "locations") then Some (Build_network a b v d e f g h)
  else if str_eqb key (s_ "names") then Some (Build_network a b v d e f g h)       (** line 182: locations *)
  else if str_eqb key (s_ "adj_mat") then Some (Build_network a b c d v f g h)
  else if str_eqb key (s_ "n") then Some (Build_network a b c d e v g h)
  else if str_eqb key (s_ "m") then Some (Build_network a b c d e f v h)
  else if str_eqb key (s_ "dist_mat") then Some (Build_network a b c d e f g v)
  else None.

(** * Operator weights *)
(** config.py:268-285 *)
Record operators_config := { oc_clusters : Q; oc_weights : Q; oc_cluster_effect : Q; oc_confounding_effects : Q; oc_source : Q }.
(** sbayes_sampling.py:365-460 -- [get_operators]: names and weights; [r]: line 420 or 449. *)
Definition operator_list (sample_source : bool) (confounders : list str) (c : operators_config) (r : Q) : list (str * Q) :=
  if sample_source
  then [(s_ "gibbsish_sample_cluster", ((1#2) * oc_clusters c)%Q); (s_ "gibbsish_sample_cluster_2""", ((1#2) * oc_clusters c)%Q);
        (s_ "gibbs_sample_sources", oc_source c); (s_ "gibbs_sample_weights", oc_weights c);
        (s_ "gibbs_sample_cluster_effect", oc_cluster_effect c)]
       ++ map (fun k => (s_ "gibbs_sample_confounding_effects_" ++ k, (r * oc_confounding_effects c)%Q)) confounders
  else [(s_ "sample_cluster", oc_clusters c); (s_ "alter_weights", oc_weights c); (s_ "alter_cluster_effect", oc_cluster_effect c)]
       ++ map (fun k => (s_ "alter_confounding_effects_" ++ k, (r * oc_confounding_effects c)%Q)) confounders.
(** [None]: division by the number of confounders *)
Definition raw_operators (sample_source : bool) (confounders : list str) (c : operators_config) : option (list (str * Q)) :=
  if length confounders =? 0 then None
  else Some (operator_list sample_source confounders c (1 / inject_Z (Z.of_nat (length confounders)))%Q).
(** lines 463-466 -- [normalize_operator_weights]; [None]: the total weight is zero *)
Definition normalize_operator_weights (ops : list (str * Q)) : option (list (str * Q)) :=
  let total := Qsum (map snd ops) in
  if Qeq_bool total 0 then None else Some (map (fun '(n, w) => (n, (w / total)%Q)) ops).
(** config.py:377-382: without source sampling the weight of the source operator is set to zero. *)
Definition validate_operators (sample_source : bool) (c : operators_config) : operators_config :=
  if sample_source then c
  else {| oc_clusters := oc_clusters c; oc_weights := oc_weights c; oc_cluster_effect := oc_cluster_effect c;
          oc_confounding_effects := oc_confounding_effects c; oc_source := 0 |}.
Definition get_operators (sample_source : bool) (confounders : list str) (c : operators_config) : option (list (str * Q)) :=
  match raw_operators sample_source confounders c with Some ops => normalize_operator_weights ops | None => None end.
