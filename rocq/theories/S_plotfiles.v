(** Specification of what all plots of a process leave in the directory of the plots (C97). *)
From Verif Require Import M_plotrun S_simplex.
Set Implicit Arguments.
Unset Strict Implicit.
Close Scope R_scope.
Close Scope Q_scope.
Open Scope nat_scope.

(** The plots of one run, and the names of their files. *)
Inductive kind := KMap | KWeights | KPreference (component : str) | KPies.
Definition run_name (r : nat * nat) : str := s_ "K" ++ str_nat (fst r) ++ s_ "_" ++ str_nat (snd r).
Definition file_of (cfg : plot_config) (m : str) (k : kind) : str :=
  match k with
  | KMap => s_ "posterior_map_" ++ m ++ (if str_eqb (pc_type cfg) (s_ "density_map") then [] else s_ "_" ++ frequency_text (pc_frequency cfg))
            ++ s_ "." ++ pc_map_format cfg
  | KWeights => s_ "weights_grid_" ++ m ++ s_ "." ++ pc_weight_format cfg
  | KPreference c => s_ "prob_grid_" ++ m ++ s_ "_" ++ c ++ s_ "." ++ pc_pref_format cfg
  | KPies => s_ "plot_pies_" ++ m ++ s_ "." ++ pc_pie_format cfg
  end.
(** The samples of the preferences of a cluster, or of a group of a confounder (named <confounder>_<group>). *)
Definition component (r : results) (name : str) (p : list (str * list (list Q))) : Prop :=
  In (name, p) (r_areal_effect r) \/
  exists conf groups g, In (conf, groups) (r_confounding_effects r) /\ In (g, p) groups /\ name = conf ++ s_ "_" ++ g.
(** The plots that are asked for. *)
Definition requested (cfg : plot_config) (r : results) (k : kind) : Prop :=
  match k with
  | KMap => pc_plotted cfg (s_ "map") = true
  | KWeights => pc_plotted cfg (s_ "weights_plot") = true
  | KPreference c => pc_plotted cfg (s_ "preference_plot") = true /\ (exists p, component r c p) /\ (pc_pref_which cfg <> [] -> In c (pc_pref_which cfg))
  | KPies => pc_plotted cfg (s_ "pie_plot") = true
  end.
(** Corners of regular polygons, which is what the theorems on panels ask for (C93). *)
Definition good_cache (c : cache) : Prop := forall n, 3 <= n -> exists s, regular s n (c n).

Section Shows.
Variable delaunay : list point -> list (list bool).
Variable locations : list point.
Variable names : list str.
Variable cfg : plot_config.
(** The configured map: density, or consensus with one frequency. *)
Definition configured (t : map_type) : Prop :=
  (pc_type cfg = s_ "density_map" /\ t = M_plot.Density) \/
  (pc_type cfg = s_ "consensus_map" /\ exists q text, pc_frequency cfg = One q text /\ t = Consensus q).
(** One graph per cluster of the run. *)
Definition shows_map (r : results) (gs : list graph) : Prop :=
  exists t, configured t /\ Forall2 (fun c g => clusters_to_graph delaunay t (pc_burn_in cfg) locations c = Some g) (r_clusters r) gs.
(** One panel per feature, all with the same corners, of the weights of the run. *)
Definition shows_weights (r : results) (f : figure) : Prop :=
  fg_cols f = pc_weight_cols cfg /\ exists c ws, good_cache c /\ NoDup (map fst ws) /\ (forall e, In e ws -> In e (r_weights r)) /\
  (forall x, In x (map fst ws) <-> match pc_weight_features cfg with [] => In x (map fst (r_weights r)) | fs => In x fs end) /\
  length (fg_panels f) = length ws /\
  forall i x w, nth_error ws i = Some (x, w) -> exists p, nth_error (fg_panels f) i = Some (S i, x, p) /\
    plot_weight c x (pc_weight_names cfg) (as_real w) = Some p.
(** One panel per feature of the preferences of one component of the run. *)
Definition shows_preference (r : results) (name : str) (f : figure) : Prop :=
  fg_cols f = pc_pref_cols cfg /\ exists prefs, component r name prefs /\ length (fg_panels f) = length prefs /\
  forall i x w, nth_error prefs i = Some (x, w) -> exists c c' states p, good_cache c /\ In (x, states) (r_features r) /\
    nth_error (fg_panels f) i = Some (S i, x, p) /\ plot_preference c (pc_pref_add cfg) x states (as_real w) = Some (c', p).
Definition shows (r : results) (k : kind) (p : picture) : Prop :=
  match k, p with
  | KMap, PMap gs => shows_map r gs
  | KWeights, PWeights f => shows_weights r f
  | KPreference c, PPreference f => shows_preference r c f
  | KPies, PPies ps => plot_pies (pc_pie_burn_in cfg) (pc_pie_cols cfg) names (r_clusters r) = Some ps
  | _, _ => False
  end.
End Shows.
