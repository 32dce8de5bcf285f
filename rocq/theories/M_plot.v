(** Model of the maps and pie charts of plot.py: what is drawn for a sample of clusters.  Drawing itself (matplotlib,
    background maps, projections) is not modelled; the triangulation (scipy) is an arbitrary function. *)
From Coq Require Export QArith Qround.
From Verif Require Export M_model M_text M_loggers.
Set Implicit Arguments.
Unset Strict Implicit.
Close Scope Q_scope.
Open Scope nat_scope.

(** plot.py:357, 400-403 -- division of two integers; [None]: 0/0 (NaN in numpy).  Floats are exact. *)
Definition ratio (a b : nat) : option Q := if b =? 0 then None else Some (inject_Z (Z.of_nat a) / inject_Z (Z.of_nat b))%Q.
(** plot.py:349-350, 1697-1699: [math.ceil(n * burn_in)] and the slice after it. *)
Definition after_burn_in {A} (burn_in : Q) (l : list A) : list A :=
  slice_from (Qceiling (inject_Z (Z.of_nat (length l)) * burn_in)) l.
(** plot.py:357, 1704 -- [np.sum(samples[:, o])]: the number of samples with object [o]. *)
Definition count_member (o : nat) (samples : list (list bool)) : nat := length (filter (fun s => nth o s false) samples).
(** plot.py:400: the number of samples with both objects. *)
Definition count_both (p q : nat) (samples : list (list bool)) : nat :=
  length (filter (fun s => nth p s false && nth q s false) samples).

(** * Gabriel graph *)
(** util.py:146-178 -- points of the plane (floats are exact), squared distance, middle of two points (util.py:164-172). *)
Definition point := (Q * Q)%type.
Definition sq_dist (a b : point) : Q :=
  ((fst a - fst b) * (fst a - fst b) + (snd a - snd b) * (snd a - snd b))%Q.
Definition midpoint (a b : point) : point := ((fst a + fst b) / 2, (snd a + snd b) / 2)%Q.
(** util.py:155-162 -- the entries of the matrix in row-major order; an edge is dropped if the list has its reverse. *)
Definition pair_eqb (a b : nat * nat) : bool := (fst a =? fst b) && (snd a =? snd b).
Definition nonzero_entries (m : list (list bool)) : list (nat * nat) :=
  concat (mapi (fun i r => concat (mapi (fun j (b : bool) => if b then [(i, j)] else []) r)) m).
Definition delaunay_connections (m : list (list bool)) : list (nat * nat) :=
  fold_left (fun acc e => if existsb (pair_eqb (snd e, fst e)) acc then acc else acc ++ [e]) (nonzero_entries m) [].
(** util.py:163 -- [np.sort(connections, axis=1)] *)
Definition sort_pair (e : nat * nat) : nat * nat := if fst e <=? snd e then e else (snd e, fst e).
(** util.py:146-178 -- [gabriel_graph_from_delaunay].  Distances are compared by their squares.  [None]: without
    connections [np.sort] fails (the array has no second axis). *)
Definition no_point_within (locations : list point) (e : nat * nat) : bool :=
  let a := nth (fst e) locations (0, 0)%Q in let b := nth (snd e) locations (0, 0)%Q in
  let m := midpoint a b in let r2 := (sq_dist a b / 4)%Q in
  forallb (fun p => Qle_bool (r2 * (999 # 1000) * (999 # 1000)) (sq_dist p m)) locations.
Definition gabriel_graph (delaunay : list (list bool)) (locations : list point) : option (list (nat * nat)) :=
  match delaunay_connections delaunay with
  | [] => None
  | cs => Some (map sort_pair (filter (no_point_within locations) cs))
  end.

(** * Maps *)
(** plot.py:355-392, config_plot 'map' -- config['map']['content']['type'], with 'min_posterior_frequency' *)
Inductive map_type := Density | Consensus (min_posterior_frequency : Q).
(** plot.py:356-362 -- [in_graph]; NaN is not [>=] anything. *)
Definition in_graph (c : map_type) (n : nat) (samples : list (list bool)) : list bool :=
  match c with
  | Density => repeat true n
  | Consensus t => map (fun o => match ratio (count_member o samples) (length samples) with Some q => Qle_bool t q | None => false end) (seq 0 n)
  end.
(** plot.py:370-392 -- the edges, as pairs of positions in the list of objects of the graph. *)
Definition graph_connections (delaunay : list point -> list (list bool)) (c : map_type) (n : nat) (locations : list point) : option (list (nat * nat)) :=
  match c with
  | Density => Some (filter (fun e => fst e <? snd e) (list_prod (seq 0 n) (seq 0 n)))
  | Consensus _ =>
      if 3 <? length locations then gabriel_graph (delaunay locations) locations
      else if length locations =? 3 then Some [(0, 1); (1, 2); (2, 0)]
      else if length locations =? 2 then Some [(0, 1)]
      else Some []
  end.
(** plot.py:345-405 -- [clusters_to_graph]: which objects are in the graph, and the lines (pairs of objects) with
    their weights.  [cluster]: samples x objects, one column per location. *)
Definition clusters_to_graph (delaunay : list point -> list (list bool)) (c : map_type) (burn_in : Q) (locations : list point)
    (cluster : list (list bool)) : option (list bool * list (nat * nat * option Q)) :=
  let samples := after_burn_in burn_in cluster in
  let n := length locations in
  let g := in_graph c n samples in
  let cluster_indices := filter (fun o => nth o g false) (seq 0 n) in
  match graph_connections delaunay c n (map (fun o => nth o locations (0, 0)%Q) cluster_indices) with
  | None => None
  | Some edges => Some (g, map (fun e => let p := nth (fst e) cluster_indices 0 in let q := nth (snd e) cluster_indices 0 in
                                          (p, q, ratio (count_both p q samples) (length samples))) edges)
  end.
(** plot.py:227-241, 493-501 -- the graphs of all clusters of a model: [burn_in] is given to the reader of the
    results (C34) and used again for each cluster. *)
Definition map_graphs (delaunay : list point -> list (list bool)) (c : map_type) (burn_in : Q) (locations : list point)
    (clusters : list bmat) : option (list (list bool * list (nat * nat * option Q))) :=
  all_opt (map (clusters_to_graph delaunay c burn_in locations) (fst (drop_burnin clusters (@nil unit) burn_in))).

(** * Pie charts *)
(** plot.py:1753-1761 -- long labels are broken near the middle; [min] returns the first minimum; the distance to
    the middle is doubled to stay in the integers. *)
Definition space : ascii := " ".
Definition dash : ascii := "-".
Definition has_char (c : ascii) (l : str) : bool := existsb (fun x => if ascii_dec x c then true else false) l.
Definition white_or_dash (l : str) : list nat :=
  filter (fun i => let x := nth i l newline in (if ascii_dec x space then true else false) || (if ascii_dec x dash then true else false)) (seq 0 (length l)).
Definition off_middle (l : str) (i : nat) : Z := Z.abs (2 * Z.of_nat i - Z.of_nat (length l)).
Fixpoint first_min (key : nat -> Z) (best : nat) (l : list nat) : nat :=
  match l with [] => best | i :: r => first_min key (if (key i <? key best)%Z then i else best) r end.
Definition break_label (l : str) : str :=
  match white_or_dash l with
  | [] => l
  | i :: r =>
      if 10 <? length l then
        let b := first_min (off_middle l) i r in
        if has_char space l then firstn b l ++ [newline] ++ skipn (b + 1) l
        else firstn b l ++ [dash; newline] ++ skipn (b + 1) l
      else l
  end.

(** plot.py:1735-1768 -- one chart: its place in the grid, the values of the slices, the number and the label. *)
Record pie := { p_row : nat; p_col : nat; p_slices : list Z; p_number : nat; p_label : str }.
(** plot.py:1690-1785 -- [plot_pies]: the charts, or [None] for an exception: no columns (division by zero), no objects
    (matplotlib needs a row), a single row or column ([plt.subplots] then returns an array with one index, line 1747),
    a negative slice (matplotlib).  [clusters]: clusters x samples x objects, [names]: one per object. *)
(* [ceil_div]: plot.py:1708, [math.ceil(n_plots / n_col)]. *)
Definition ceil_div (a b : nat) : nat := (a + b - 1) / b.
Definition plot_pies (burn_in : Q) (n_col : nat) (names : list str) (clusters : list bmat) : option (list pie) :=
  let n_total := match clusters with [] => 0 | c :: _ => length c end in
  let end_bi := Qceiling (inject_Z (Z.of_nat n_total) * burn_in) in
  let samples := map (slice_from end_bi) clusters in
  let n_samples := match samples with [] => 0 | c :: _ => length c end in
  let n_plots := length names in
  let n_row := ceil_div n_plots n_col in
  if (n_row <=? 1) || (n_col <=? 1) then None else
  let pies := map (fun l =>
      let per_lang := map (fun c => Z.of_nat (count_member l c)) samples in
      let no_cluster := (Z.of_nat n_samples - fold_right Z.add 0 per_lang)%Z in
      {| p_row := l - n_row * (l / n_row); p_col := l / n_row; p_slices := per_lang ++ [no_cluster];
         p_number := l + 1; p_label := break_label (nth l names []) |}) (seq 0 n_plots) in
  if forallb (fun p => forallb (fun x => (0 <=? x)%Z) (p_slices p)) pies then Some pies else None.
(** plot.py:227-241, 1690 -- the charts of a model: the results are read with the burn-in of the map, [plot_pies]
    drops its own burn-in. *)
Definition pies_of (map_burn_in pie_burn_in : Q) (n_col : nat) (names : list str) (clusters : list bmat) : option (list pie) :=
  plot_pies pie_burn_in n_col names (fst (drop_burnin clusters (@nil unit) map_burn_in)).
