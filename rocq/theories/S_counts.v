(** Specification for C67, C68 and C69, on the cells of the tables. *)
From Verif Require Export M_counts.
Set Implicit Arguments.
Unset Strict Implicit.
Close Scope Q_scope.

(** How many objects have the value [x] in a column. *)
Fixpoint n_with (x : str) (col : list (option str)) : nat :=
  match col with [] => 0 | v :: r => (match v with Some y => if str_eqb y x then 1 else 0 | None => 0 end) + n_with x r end.
(** How many objects have any value. *)
Definition n_known (col : list (option str)) : nat := length (dropna col).
(** How many objects of family [g] have the value [x], and how many with any family. *)
Fixpoint n_with_in (g x : str) (fam col : list (option str)) : nat :=
  match fam, col with
  | v :: fam', w :: col' =>
      (match v, w with Some h, Some y => if str_eqb h g && str_eqb y x then 1 else 0 | _, _ => 0 end) + n_with_in g x fam' col'
  | _, _ => 0
  end.
Fixpoint n_with_any (x : str) (fam col : list (option str)) : nat :=
  match fam, col with
  | v :: fam', w :: col' => (match v, w with Some _, Some y => if str_eqb y x then 1 else 0 | _, _ => 0 end) + n_with_any x fam' col'
  | _, _ => 0
  end.
Definition Qn (n : nat) : Q := inject_Z (Z.of_nat n).
(** The value stored for a feature and a state. *)
Definition lookup2 (d : dict (dict Q)) (f s : str) : option Q :=
  match get_col d f with Some row => get_col row s | None => None end.
(** Tables as pandas provides them: distinct column names; the feature states have [n] rows, the data [m]. *)
Definition table (m : nat) (df : frame) : Prop := NoDup (map fst df) /\ Forall (fun c => length (snd c) = m) df.
(** The names under which the model asks for the concentrations. *)
Definition model_names (feature_states : frame) : list (str * list str) := map (fun '(f, st) => (f, dropna st)) feature_states.
(** The last cell of the rows of [f] in the column [s]; blank cells are missing. *)
Fixpoint last_row {A} (f : str) (rows : list (str * A)) : option A :=
  match rows with
  | [] => None
  | (f', c) :: r => match last_row f r with Some x => Some x | None => if str_eqb f f' then Some c else None end
  end.
Definition cell (cols : list str) (rows : list (str * list (option Q))) (f s : str) : option Q :=
  match last_row f rows with
  | Some cells => match get_col (combine cols cells) s with Some (Some q) => Some q | _ => None end
  | None => None
  end.
(** How many objects of family [g] have any value. *)
Fixpoint n_known_in (g : str) (fam col : list (option str)) : nat :=
  match fam, col with
  | v :: fam', w :: col' => (match v, w with Some h, Some _ => if str_eqb h g then 1 else 0 | _, _ => 0 end) + n_known_in g fam' col'
  | _, _ => 0
  end.
(** The factor by which counts with a given total are shrunk to respect a bound. *)
Definition shrink (bound : option Q) (total : nat) : Q :=
  match bound with None => 1 | Some b => if Qle_bool (Qn total) b then 1 else (b / Qn total) end%Q.
