(** Model of the prior counts: tools/extract_universal_prior_counts.py, tools/extract_inheritance_prior_counts.py,
    tools/convert_prior_csv_to_json.py and their reader in model/prior.py:147-170.

    Simplifications: command line, dialogs and file system are left out; a JSON file is the dictionary written to it
    (keys are strings, floats survive the round trip); floats are exact rationals. *)
From Verif Require Export M_util M_data.
Set Implicit Arguments.
Unset Strict Implicit.
Close Scope Q_scope.

(** Dictionaries: [d[k] = v] overwrites an existing key; [d[k]] is [get_col] of M_data ([None]: KeyError). *)
Definition dict (A : Type) := list (str * A).
Fixpoint dset {A} (k : str) (v : A) (d : dict A) : dict A :=
  match d with
  | [] => [(k, v)]
  | (k', v') :: r => if str_eqb k k' then (k, v) :: r else (k', v') :: dset k v r
  end.
Definition dict_of {A} (l : list (str * A)) : dict A := fold_left (fun d '(k, v) => dset k v d) l [].

(** extract_inheritance_prior_counts.py:89-91, extract_universal_prior_counts.py:87 -- one feature of
    [np.sum(features.values[members], axis=0)]; [vals] are the rows of the objects. *)
Definition state_counts (n_states : nat) (members : list bool) (vals : list (list bool)) : list Q :=
  map (fun s => inject_Z (Z.of_nat (length (filter (fun '(m, v) => m && nth s v false) (combine members vals))))) (seq 0 n_states).
(** extract_universal_prior_counts.py:90-91, extract_inheritance_prior_counts.py:94-95 *)
Definition scaled (max_counts : option Q) (counts : list (list Q)) : list (list Q) :=
  match max_counts with None => counts | Some m => scale_counts counts m end.
(** extract_universal_prior_counts.py:93-97, extract_inheritance_prior_counts.py:97-101 -- [counts_dict] *)
Definition counts_dict (names : list str) (state_names : list (list str)) (c0 : Q) (counts : list (list Q)) : dict (dict Q) :=
  dict_of (map (fun '(i_f, feature) =>
                  (feature, dict_of (map (fun '(i_s, state) => (state, (c0 + nth i_s (nth i_f counts []) 0)%Q))
                                         (combine (seq 0 (length (nth i_f state_names []))) (nth i_f state_names [])))))
               (combine (seq 0 (length names)) names)).
Definition counts_of (n_states : nat) (feature_states : frame) (enc : encoded) (c0 : Q) (max_counts : option Q) (members : list bool) : dict (dict Q) :=
  counts_dict (map fst feature_states) (enc_names enc) c0 (scaled max_counts (map (state_counts n_states members) (enc_values enc))).
(** extract_universal_prior_counts.py:81-100 *)
Definition extract_universal (n_objects n_states : nat) (data feature_states : frame) (c0 : Q) (max_counts : option Q) : option (dict (dict Q)) :=
  match encode_states n_states data feature_states, confounder_from_dataframe n_objects data (s_ "universal") (Some [s_ "<ALL>"]) with
  | Some enc, Some _ => Some (counts_of n_states feature_states enc c0 max_counts (repeat true n_objects))
  | _, _ => None
  end.
(** extract_inheritance_prior_counts.py:81-104 -- the files by family name *)
Definition extract_inheritance (n_objects n_states : nat) (data feature_states : frame) (c0 : Q) (max_counts : option Q) : option (list (str * dict (dict Q))) :=
  match encode_states n_states data feature_states, confounder_from_dataframe n_objects data (s_ "family") None with
  | Some enc, Some fam => Some (map (fun '(name, members) => (name, counts_of n_states feature_states enc c0 max_counts members))
                                    (combine (cd_groups fam) (cd_assignment fam)))
  | _, _ => None
  end.

(** convert_prior_csv_to_json.py:18-28 -- the table as column names (without 'feature') and rows; [None] is a blank cell.
    Cells that are not numbers are not modelled. *)
Definition convert_csv (cols : list str) (rows : list (str * list (option Q))) : dict (dict Q) :=
  dict_of (map (fun '(feature, cells) =>
                  (feature, dict_of (flat_map (fun '(k, v) => match v with Some q => [(k, q)] | None => [] end) (combine cols cells)))) rows).

(** prior.py:158-170 -- [parse_concentration_dict]; [feature_names] is [feature_and_state_names] (load_data.py:96-101) *)
Definition parse_concentration_dict (initial_counts : Q) (feature_names : list (str * list str)) (d : dict (dict Q)) : option (list (list Q)) :=
  all_opt' (map (fun '(f, states) =>
                   all_opt' (map (fun s => match get_col d f with
                                           | Some row => option_map (fun q => (initial_counts + q)%Q) (get_col row s)
                                           | None => None end) states)) feature_names).
(** prior.py:128 -- the default of [initial_counts], which no caller changes (prior.py:43-57) *)
Definition initial_counts : Q := 1.
