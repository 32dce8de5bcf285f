(** Model of the simulation of features: simulation.py:206-256, preprocessing.py:244-305. *)
From Verif Require Export M_model M_params M_data.
Set Implicit Arguments.
Unset Strict Implicit.
Open Scope nat_scope.

(** [np.unique] of integers *)
Fixpoint insert_z (x : Z) (l : list Z) : list Z :=
  match l with
  | [] => [x]
  | y :: r => match Z.compare x y with Lt => x :: y :: r | Eq => y :: r | Gt => y :: insert_z x r end
  end.
Definition unique_z (l : list Z) : list Z := fold_right insert_z [] l.
(** preprocessing.py:244-269 -- [assign_to_cluster]: label 0 means no cluster *)
Definition assign_to_cluster (labels : list Z) : bmat :=
  map (fun z => map (Z.eqb z) labels) (unique_z (filter (fun z => negb (Z.eqb z 0)) labels)).
(** preprocessing.py:272-305 -- [assign_to_confounders] for one confounder: [confounder is not None] is the
    constant True, so all labels make groups, also the label "0" of empty cells (load_canvas, lines 36-40). *)
Definition assign_to_confounder (labels : list str) : bmat :=
  map (fun g => map (str_eqb g) labels) (sorted_set labels).

(** simulation.py:243-251 -- the value of a component at all states: [membership.T.dot(probabilities[:, feat, :])] *)
Definition sim_component (n_states : nat) (groups : bmat) (probs : list effect) (f o : nat) : list Q :=
  map (fun s => Qsum (map2 (fun g (p : effect) => if nth o g false then nth s (nth f p []) 0%Q else 0%Q) groups probs)) (seq 0 n_states).
(** simulation.py:224-251 -- [lh_feature] for one object and one feature; [None]: NaN *)
Definition sim_dist (n_states : nat) (weights : list (list Q)) (comps : list (bmat * list effect)) (f o : nat) : option (list Q) :=
  match normalize_row (nth f weights []) (map (fun c => any_group (fst c) o) comps) with
  | None => None
  | Some nw => Some (map (fun s => Qsum (map2 (fun w c => (w * nth s (sim_component n_states (fst c) (snd c) f o) 0)%Q) nw comps)) (seq 0 n_states))
  end.
(** line 254 -- the simulated state, with the uniform draw [z] *)
Definition sim_feature (n_states : nat) (weights : list (list Q)) (comps : list (bmat * list effect)) (z : Q) (f o : nat) : nat :=
  categorical z (sim_dist n_states weights comps f o).
