(** Model of the loading of data: util.encode_states, load_data.Confounder, preprocessing.read_geo_cost_matrix
    and tools/extract_feature_states.py.  A data frame is a list of named columns; [None] is a missing value
    (NaN).  Column names are distinct (pandas renames repeated columns when reading a file). *)
From Coq Require Export QArith Qabs.
From Verif Require Export M_text.
Set Implicit Arguments.
Unset Strict Implicit.
Close Scope Q_scope.

Definition frame := list (str * list (option str)).
Fixpoint get_col {A} (df : list (str * A)) (name : str) : option A :=
  match df with [] => None | (n, c) :: r => if str_eqb name n then Some c else get_col r name end.
Definition is_some {A} (x : option A) : bool := match x with Some _ => true | None => false end.
(** [Series.dropna()] *)
Fixpoint dropna {A} (l : list (option A)) : list A :=
  match l with [] => [] | Some x :: r => x :: dropna r | None :: r => dropna r end.

(** ** util.py:257-309 -- [encode_states] *)
(** [dict(zip(s_ext, range(len(s_ext))))[x]]: the last position of [x]. *)
Fixpoint last_index_from (k : nat) (x : str) (l : list str) : option nat :=
  match l with
  | [] => None
  | y :: r => match last_index_from (S k) x r with Some i => Some i | None => if str_eqb x y then Some k else None end
  end.
Definition ext_to_int (s_ext : list str) (x : str) : option nat := last_index_from 0 x s_ext.
(** [np.eye(n)[i]] *)
Definition one_hot (n i : nat) : list bool := map (fun j => j =? i) (seq 0 n).
(** util.py:284-303: one feature; [None] is the failing assertion in line 296. *)
Definition encode_feature (n_states : nat) (f_states f_raw : list (option str)) : option (list (list bool)) :=
  let s_ext := dropna f_states in
  if forallb (fun x => mem x s_ext) (dropna f_raw) then
    Some (map (fun v => match v with
                        | Some x => match ext_to_int s_ext x with Some i => one_hot n_states i | None => repeat false n_states end
                        | None => repeat false n_states
                        end) f_raw)
  else None.
Record encoded := { enc_values : list (list (list bool));        (** features x objects x states (transposed) *)
                    enc_states : list (list bool);               (** applicable states *)
                    enc_names : list (list str);                 (** state names *)
                    enc_na : nat }.
Fixpoint all_opt' {A} (l : list (option A)) : option (list A) :=
  match l with
  | [] => Some []
  | x :: r => match x, all_opt' r with Some a, Some b => Some (a :: b) | _, _ => None end
  end.
(** load_data.py:112-126 (the columns of the feature states are selected from the data; a missing column is
    a KeyError) and util.py:257-309.  [n_states] is the number of rows of the feature states table. *)
Definition encode_states (n_states : nat) (data feature_states : frame) : option encoded :=
  match all_opt' (map (fun '(name, st) => match get_col data name with
                                          | Some raw => option_map (fun v => (v, raw)) (encode_feature n_states st raw)
                                          | None => None end) feature_states) with
  | None => None
  | Some vs => Some {| enc_values := map fst vs;
                       enc_states := map (fun '(_, st) => map is_some st) feature_states;
                       enc_names := map (fun '(_, st) => dropna st) feature_states;
                       enc_na := list_sum (map (fun '(_, raw) => length (filter (fun v => negb (is_some v)) raw)) vs) |}
  end.

(** ** Order of strings (by code), sorted lists without repetitions *)
Fixpoint str_cmp (a b : str) : comparison :=
  match a, b with
  | [], [] => Eq
  | [], _ :: _ => Lt
  | _ :: _, [] => Gt
  | x :: a, y :: b => match N.compare (N_of_ascii x) (N_of_ascii y) with Eq => str_cmp a b | c => c end
  end.
(** Insertion into a sorted list, without repetition. *)
Fixpoint insert (x : str) (l : list str) : list str :=
  match l with
  | [] => [x]
  | y :: r => match str_cmp x y with Lt => x :: y :: r | Eq => y :: r | Gt => y :: insert x r end
  end.
(** [sorted(set(l))], also [np.unique(l)]. *)
Definition sorted_set (l : list str) : list str := fold_right insert [] l.

(** ** load_data.py:150-190 -- [Confounder.from_dataframe] *)
Record confounder_data := { cd_groups : list str; cd_assignment : list (list bool) }.
Definition set_eqb (a b : list str) : bool := forallb (fun x => mem x b) a && forallb (fun x => mem x a) b.
Definition confounder_from_dataframe (n_objects : nat) (data : frame) (name : str) (group_names : option (list str)) : option confounder_data :=
  match get_col data name with
  | None =>
      match group_names with
      | Some [g] => if str_eqb g (s_ "<ALL>") then Some {| cd_groups := [g]; cd_assignment := [repeat true n_objects] |} else None
      | _ => None                                                (** KeyError; [len(None)]: TypeError *)
      end
  | Some col =>
      let in_data := sorted_set (dropna col) in
      let build gs := Some {| cd_groups := gs;
                              cd_assignment := map (fun g => map (fun v => match v with Some x => str_eqb x g | None => false end) col) gs |} in
      match group_names with
      | None => build in_data
      | Some gs => if set_eqb gs in_data then build gs else None
      end
  end.

(** ** preprocessing.py:382-406 -- [read_geo_cost_matrix]: the file as names of rows, names of columns and
    entries.  Floats are exact; [None]: AssertionError or KeyError.  Repeated names are not modelled (the
    first match is used; pandas would return several rows). *)
Record cost_file := { cf_rows : list str; cf_cols : list str; cf_entry : list (list Q) }.
Fixpoint index_of_from (k : nat) (x : str) (l : list str) : option nat :=
  match l with [] => None | y :: r => if str_eqb x y then Some k else index_of_from (S k) x r end.
Definition index_of (x : str) (l : list str) : option nat := index_of_from 0 x l.
Definition entry (m : list (list Q)) (i j : nat) : Q := nth j (nth i m []) 0%Q.
(** [np.allclose(a, b)] for one pair of numbers: rtol = 1e-5, atol = 1e-8. *)
Definition isclose (a b : Q) : bool := Qle_bool (Qabs (a - b)) ((1#100000000) + (1#100000) * Qabs b).
Definition square (n : nat) (f : nat -> nat -> Q) : list (list Q) := map (fun i => map (f i) (seq 0 n)) (seq 0 n).
Definition read_geo_cost_matrix (object_names : list str) (f : cost_file) : option (list (list Q)) :=
  if set_eqb (cf_cols f) object_names then
    match all_opt' (map (fun x => index_of x (cf_rows f)) object_names), all_opt' (map (fun x => index_of x (cf_cols f)) object_names) with
    | Some ri, Some ci =>
        let n := length object_names in
        let m := square n (fun i j => entry (cf_entry f) (nth i ri 0) (nth j ci 0)) in
        if forallb (fun i => forallb (fun j => isclose (entry m i j) (entry m j i)) (seq 0 n)) (seq 0 n)
        then Some m
        else Some (square n (fun i j => (entry m i j + entry m j i) / 2)%Q)
    | _, _ => None
    end
  else None.

(** ** tools/extract_feature_states.py *)
(** Files as written: named columns of cells; for the text of the files see M_extract.v. *)
Definition csv := list (str * list str).
(** [str.strip] *)
Definition is_space (c : ascii) : bool := let n := nat_of_ascii c in (n =? 32) || ((9 <=? n) && (n <=? 13)) || ((28 <=? n) && (n <=? 31)).
Fixpoint lstrip (x : str) : str := match x with c :: r => if is_space c then lstrip r else x | [] => [] end.
Definition strip (x : str) : str := rev (lstrip (rev (lstrip x))).
Section Extract.
(** The cells that pandas reads as missing; the empty cell is one of them. *)
Variable na : str -> bool.
Definition read_cell (c : str) : option str := if na c then None else Some (strip c).
(** util.py:312-319 -- [read_data_csv] (also lines 43 and 49 of the tool). *)
Definition read_csv (f : csv) : frame := map (fun '(n, c) => (n, map read_cell c)) f.
Definition metadata : list str := map s_ ["id"; "name"; "family"; "x"; "y"]%string.
(** extract_feature_states.py:42-50; sets are kept as sorted lists. *)
Definition collect_feature_states (f : csv) : option (list (str * list str)) :=
  if forallb (fun m => mem m (map fst f)) metadata
  then Some (map (fun '(n, c) => (n, sorted_set (dropna c))) (filter (fun '(n, _) => negb (mem n metadata)) (read_csv f)))
  else None.
(** lines 96-114: merging with the states of further files *)
Definition merge_states (a b : list (str * list str)) : option (list (str * list str)) :=
  if set_eqb (map fst a) (map fst b)
  then Some (map (fun '(n, ss) => (n, match get_col b n with Some ss' => fold_right insert ss ss' | None => ss end)) a)
  else None.
Fixpoint merge_files (acc : list (str * list str)) (files : list csv) : option (list (str * list str)) :=
  match files with
  | [] => Some acc
  | f :: r => match collect_feature_states f with
              | None => None
              | Some b => match merge_states acc b with None => None | Some acc => merge_files acc r end
              end
  end.
(** lines 53-62 and 116-134: pad the columns; missing values are written as empty cells. *)
Definition max_len (d : list (str * list str)) : nat := fold_right (fun '(_, ss) n => Nat.max (length ss) n) 0 d.
Definition write_states (d : list (str * list str)) : csv :=
  map (fun '(n, ss) => (n, ss ++ repeat [] (max_len d - length ss))) d.
(** The tool for one or more files; [max] of no columns is a ValueError. *)
Definition extract_feature_states (files : list csv) : option csv :=
  match files with
  | [] => None
  | f :: r => match collect_feature_states f with
              | None => None
              | Some a => match merge_files a r with
                          | None | Some [] => None
                          | Some d => Some (write_states d)
                          end
              end
  end.
End Extract.
