(** Model of the plots of weights and preferences (plot.py:956-1420): corners of the simplex and their cache, projection of
    the samples, the cover of the outside, the panels of the figures.  Positions on paper are exact reals; the kernel
    density (seaborn), colours, fonts and sizes are not modelled: a panel records the points, polygon, covers and labels
    that are handed to matplotlib. *)
From Coq Require Export Reals Qreals.
From Verif Require Export M_plot2 M_results.
Set Implicit Arguments.
Unset Strict Implicit.
Close Scope Q_scope.
Close Scope R_scope.
Open Scope nat_scope.

Definition pt := (R * R)%type.
Definition padd (a b : pt) : pt := ((fst a + fst b)%R, (snd a + snd b)%R).
Definition pscale (s : R) (a : pt) : pt := ((s * fst a)%R, (s * snd a)%R).

(** plot.py:958-962 -- one corner; [np.linspace(0, 2 pi, n, endpoint=False)[k] + pi / 2] is the angle. *)
Definition corner (n k : nat) : pt :=
  (cos (2 * PI * INR k / INR n + PI / 2), sin (2 * PI * INR k / INR n + PI / 2))%R.
(** plot.py:958-962 -- [get_corner_points(n)] *)
Definition corner_points (n : nat) : list pt := map (corner n) (seq 0 n).
(** plot.py:957 -- [@lru_cache(maxsize=128)]: the arrays returned so far, by [n].  All callers get the same array, hence also
    what others wrote to it.  (Never more than 128 numbers of corners.) *)
Definition cache := nat -> list pt.
Definition new_cache : cache := corner_points.

(** plot.py:1120, 1216, 1148 -- [samples.dot(corners)], one row *)
Fixpoint project (w : list R) (corners : list pt) : pt :=
  match w, corners with
  | a :: w, c :: corners => padd (pscale a c) (project w corners)
  | _, _ => (0%R, 0%R)
  end.
Definition Rsum (l : list R) : R := fold_right Rplus 0%R l.
(** plot.py:1148 -- [np.mean(samples, axis=0)] for rows of [n] entries *)
Definition mean_row (n : nat) (samples : list (list R)) : list R :=
  map (fun i => (Rsum (map (fun r => nth i r 0%R) samples) / INR (length samples))%R) (seq 0 n).

(** * The cover of the outside (plot.py:964-1002) *)
(** plot.py:981-982 -- [np.argmin], [np.argmax]: the first of the best *)
Fixpoint arg_first (better : R -> R -> bool) (best : R) (at_ i : nat) (l : list R) : nat :=
  match l with [] => at_ | x :: r => if better x best then arg_first better x i (S i) r else arg_first better best at_ (S i) r end.
Definition Rltb (a b : R) : bool := if Rlt_dec a b then true else false.
Definition argmin (l : list R) : nat := match l with [] => 0 | x :: r => arg_first Rltb x 0 1 r end.
Definition argmax (l : list R) : nat := match l with [] => 0 | x :: r => arg_first (fun a b => Rltb b a) x 0 1 r end.
(** plot.py:985-990 -- indices of the bottom face after the first; [None]: IndexError ([fuel]: the loop ends within [n]
    rounds or fails). *)
Fixpoint walk_up (fuel n right i : nat) : option (list nat) :=
  if i mod n =? right then Some []
  else match fuel with
       | 0 => None
       | S fuel => if S i <? n then option_map (cons (S i)) (walk_up fuel n right (S i)) else None
       end.
(** plot.py:993-998 -- indices of the top face after the first; an index [-n <= i < 0] counts from the end. *)
Fixpoint walk_down (fuel n right : nat) (i : Z) : option (list nat) :=
  if (i mod Z.of_nat n =? Z.of_nat right)%Z then Some []
  else match fuel with
       | 0 => None
       | S fuel => if (- Z.of_nat n <=? i - 1)%Z
                   then option_map (cons (Z.to_nat ((i - 1) mod Z.of_nat n))) (walk_down fuel n right (i - 1)%Z) else None
       end.
(** plot.py:964-1002 -- [fill_outside]: the lines below and above which the paper is painted white. *)
Definition fill_outside (polygon : list pt) : option (list pt * list pt) :=
  let n := length polygon in
  if n <=? 2 then None                                                     (** ValueError *)
  else
    let left := argmin (map fst polygon) in let right := argmax (map fst polygon) in
    let corner_of i := nth i polygon (0%R, 0%R) in
    obind (walk_up n n right left) (fun bottom =>
    obind (walk_down n n right (Z.of_nat left)) (fun top =>
    Some (map corner_of (left :: bottom), map corner_of (left :: top)))).

(** * One panel *)
Record simplex_plot := {
  sp_title : str;
  sp_points : list pt;                   (** the projected samples *)
  sp_polygon : list pt;                  (** the border of the simplex, as drawn *)
  sp_cover : list pt * list pt;
  sp_mean : option pt;
  sp_labels : list (pt * str) }.
Inductive panel :=
| Simplex (s : simplex_plot)
| Density (title : str) (samples : list R) (labels : list (R * str))      (** two states: density of the second *)
| Blank.                                                                   (** one state: nothing is drawn *)

(** [samples.shape[1]] (plot.py:1108, 1178), the same for all rows; for at least one sample *)
Definition n_columns (samples : list (list R)) : nat := length (hd [] samples).

(** plot.py:1084-1158 -- [plot_weight]; [names]: the configured names of the labels, [None] if [labels['add']] is false. *)
Definition plot_weight (c : cache) (title : str) (names : option (list str)) (samples : list (list R)) : option panel :=
  let n := n_columns samples in
  let corners := c n in
  option_map (fun cover =>
    Simplex {| sp_title := title;
               sp_points := map (fun w => project w corners) samples;
               sp_polygon := corners;
               sp_cover := cover;
               sp_mean := Some (project (mean_row n samples) corners);
               sp_labels := match names with
                            | None => []
                            | Some names => map (fun '(xy, l) => ((fst xy * 1.15 - 0.05, snd xy * 1.15 - 0.05)%R, l)) (combine corners names)
                            end |}) (fill_outside corners).

(** plot.py:1236-1237 -- [for xy, label in zip(corners, label_names): xy *= 1.2]: [xy] is a view of the row, the array
    itself (which the cache keeps) is stretched, as far as there are labels. *)
Definition stretch (labels : nat) (corners : list pt) : list pt :=
  map (pscale 1.2) (firstn labels corners) ++ skipn labels corners.
Definition set_cache (c : cache) (n : nat) (v : list pt) : cache := fun m => if m =? n then v else c m.

(** plot.py:1160-1252 -- [plot_preference]; [add]: [labels['add']].  The cache afterwards, and the panel. *)
Definition plot_preference (c : cache) (add : bool) (title : str) (label_names : list str) (samples : list (list R)) : option (cache * panel) :=
  let n := n_columns samples in
  if n =? 2 then
    Some (c, Density title (map (fun r => nth 1 r 0%R) samples)
               (if add then combine (map (fun i => if i =? 0 then 0.05%R else if i =? 1 then 0.95%R else INR i) (seq 0 (length label_names))) label_names else []))
  else if 2 <? n then
    let corners := c n in
    option_map (fun cover =>
      let corners' := if add then stretch (length label_names) corners else corners in
      (set_cache c n corners',
       Simplex {| sp_title := title;
                  sp_points := map (fun w => project w corners) samples;
                  sp_polygon := corners;
                  sp_cover := cover;
                  sp_mean := None;
                  sp_labels := if add then combine corners' (map break_label_keep label_names) else [] |}))
      (fill_outside corners)
  else Some (c, Blank).

(** * Figures with one panel per feature *)
(** plot.py:1267-1277, 1377-1400 -- number of rows and the positions (from 1) of the axes that are switched off. *)
Definition grid (n_plots n_col : nat) : option (nat * list nat) :=
  if (n_col =? 0) || (n_plots =? 0) then None                              (** ZeroDivisionError; no rows: ValueError *)
  else
    let n_row := (n_plots + n_col - 1) / n_col in
    Some (n_row, map (fun e => n_row * n_col + 1 - e) (seq 1 (n_row * n_col - n_plots))).
Record figure := {
  fg_file : str;
  fg_rows : nat; fg_cols : nat;
  fg_off : list nat;
  fg_panels : list (nat * str * panel) }.                                  (** position, feature, panel *)
Definition as_real (m : list (list Q)) : list (list R) := map (map Q2R) m.
Definition lookup {A} (k : str) (d : list (str * A)) : option A := option_map snd (find (fun e => str_eqb k (fst e)) d).

(** plot.py:1280-1283 -- the loop over the features *)
Fixpoint weight_panels (c : cache) (names : option (list str)) (weights : list (str * list (list Q))) (position : nat)
  : option (list (nat * str * panel)) :=
  match weights with
  | [] => Some []
  | (f, w) :: rest =>
      obind (plot_weight c f names (as_real w)) (fun p =>
      obind (weight_panels c names rest (S position)) (fun ps => Some ((position, f, p) :: ps)))
  end.
(** plot.py:1254-1294 -- [plot_weights] *)
Definition plot_weights (c : cache) (features : list str) (names : option (list str)) (n_col : nat) (file_name file_format : str)
  (weights : list (str * list (list Q))) : option figure :=
  obind (match features with
         | [] => Some weights
         | _ => option_map (@results_dict _) (all_opt (map (fun f => option_map (pair f) (lookup f weights)) features))   (** KeyError *)
         end) (fun weights =>
  obind (grid (length weights) n_col) (fun '(n_row, off) =>
  obind (weight_panels c names weights 1) (fun ps =>
  Some {| fg_file := file_name ++ dot :: file_format; fg_rows := n_row; fg_cols := n_col; fg_off := off; fg_panels := ps |}))).

(** results.py:358-359 -- [get_states_for_feature_name]; [None]: ValueError *)
Definition states_for_feature (r : results) (f : str) : option (list str) := lookup f (r_features r).
(** plot.py:1405-1416 -- the loop over the features of one component; a position beyond the grid is a ValueError. *)
Fixpoint preference_panels (c : cache) (add : bool) (r : results) (places : nat) (prefs : list (str * list (list Q))) (position : nat)
  : option (cache * list (nat * str * panel)) :=
  match prefs with
  | [] => Some (c, [])
  | (f, p) :: rest =>
      if places <? position then None else
      obind (states_for_feature r f) (fun states =>
      obind (plot_preference c add f states (as_real p)) (fun '(c, p) =>
      obind (preference_panels c add r places rest (S position)) (fun '(c, ps) => Some (c, (position, f, p) :: ps))))
  end.
(** plot.py:1384-1391 -- all preferences in one dictionary *)
Definition all_preferences (r : results) : list (str * list (str * list (list Q))) :=
  fold_left (fun d '(conf, effect) => fold_left (fun d '(g, p) => set_key (conf ++ [underscore] ++ g) p d) effect d)
    (r_confounding_effects r) (r_areal_effect r).
(** plot.py:1393-1396 *)
Definition selected {A} (which : list str) (prefs : list (str * A)) : list (str * A) :=
  match which with [] => prefs | _ => filter (fun e => mem (fst e) which) prefs end.
(** plot.py:1398-1420 -- one figure per component *)
Fixpoint preference_figures (c : cache) (add : bool) (r : results) (n_col n_row : nat) (off : list nat) (file_name file_format : str)
  (prefs : list (str * list (str * list (list Q)))) : option (cache * list figure) :=
  match prefs with
  | [] => Some (c, [])
  | (k, p) :: rest =>
      obind (preference_panels c add r (n_row * n_col) p 1) (fun '(c, ps) =>
      obind (preference_figures c add r n_col n_row off file_name file_format rest) (fun '(c, fs) =>
      Some (c, {| fg_file := file_name ++ [underscore] ++ k ++ dot :: file_format; fg_rows := n_row; fg_cols := n_col;
                  fg_off := off; fg_panels := ps |} :: fs)))
  end.
(** plot.py:1359-1420 -- [plot_preferences] *)
Definition plot_preferences (c : cache) (add : bool) (which : list str) (n_col : nat) (file_name file_format : str) (r : results)
  : option (cache * list figure) :=
  obind (grid (length (r_features r)) n_col) (fun '(n_row, off) =>
  preference_figures c add r n_col n_row off file_name file_format (selected which (all_preferences r))).

(** * The plot of one feature (plot.py:1296-1356) *)
(** plot.py:1323-1326 -- the effects of all confounders and, last, of the clusters *)
Definition feature_preferences (r : results) : list (str * list (str * list (str * list (list Q)))) :=
  set_key (s_ "cluster") (r_areal_effect r) (r_confounding_effects r).
(** plot.py:1340-1343 -- the title above a panel *)
Definition group_title (component group : str) : str :=
  let group := if str_eqb component (s_ "cluster") then s_ "Area " ++ skipn 1 group else group in
  if str_eqb group (s_ "<ALL>") then [] else group.
(** plot.py:1333-1351 -- the panels of one row; a column beyond the grid is an IndexError. *)
Fixpoint feature_row (c : cache) (add : bool) (r : results) (feature component : str) (cols row col : nat) (groups : list (str * list (str * list (list Q))))
  : option (cache * list (nat * nat * panel)) :=
  match groups with
  | [] => Some (c, [])
  | (g, by_feature) :: rest =>
      if cols <=? col then None else
      obind (lookup feature by_feature) (fun samples =>
      obind (states_for_feature r feature) (fun states =>
      obind (plot_preference c add (group_title component g) states (as_real samples)) (fun '(c, p) =>
      obind (feature_row c add r feature component cols row (S col) rest) (fun '(c, ps) => Some (c, (row, col, p) :: ps)))))
  end.
Fixpoint feature_rows (c : cache) (add : bool) (r : results) (feature : str) (cols row : nat) (prefs : list (str * list (str * list (str * list (list Q)))))
  : option (cache * list (nat * nat * panel)) :=
  match prefs with
  | [] => Some (c, [])
  | (component, groups) :: rest =>
      obind (feature_row c add r feature component cols row 2 groups) (fun '(c, ps) =>
      obind (feature_rows c add r feature cols (S row) rest) (fun '(c, qs) => Some (c, ps ++ qs)))
  end.
(** plot.py:1296-1356 -- [plot_weights_and_prefs]: the panels by row and column (from 0), weights first.  The number of
    columns is [max] over the confounders (ValueError without). *)
Definition plot_weights_and_prefs (c : cache) (add : bool) (names : option (list str)) (feature : str) (r : results)
  : option (cache * list (nat * nat * panel)) :=
  let n_components := 1 + length (r_confounders r) in
  match r_confounders r with
  | [] => None
  | confs =>
      let max_groups := list_max (map (fun cg => length (snd cg)) confs) in
      obind (lookup feature (r_weights r)) (fun w =>
      obind (plot_weight c [] names (as_real w)) (fun p =>
      obind (feature_rows c add r feature (2 + max_groups) 0 (feature_preferences r)) (fun '(c, ps) =>
      Some (c, (n_components / 2, 0, p) :: ps))))
  end.

(** * All panels of one process *)
(** plot.py:1801-1848 -- the panels that the figures of all models draw one after the other. *)
Inductive drawing :=
| DWeight (title : str) (names : option (list str)) (samples : list (list R))
| DPreference (add : bool) (title : str) (label_names : list str) (samples : list (list R)).
Definition draw (c : cache) (d : drawing) : option (cache * panel) :=
  match d with
  | DWeight title names samples => option_map (pair c) (plot_weight c title names samples)
  | DPreference add title labels samples => plot_preference c add title labels samples
  end.
Fixpoint draw_all (c : cache) (ds : list drawing) : option (cache * list panel) :=
  match ds with
  | [] => Some (c, [])
  | d :: ds => obind (draw c d) (fun '(c, p) => obind (draw_all c ds) (fun '(c, ps) => Some (c, p :: ps)))
  end.
(** config/default_config_plot.json:127-134 -- the default names of the labels of the weights *)
Definition default_weight_names : list str := map s_ ["C"; "U"; "I"]%string.
