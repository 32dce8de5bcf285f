(** Model of a whole simulation: simulation.py:81-151, preprocessing.py:308-379, config/default_config_simulation.json.
    The steps in between are in M_sim.v and M_simdata.v.

    Simplifications: numbers are exact; random draws are arguments; paths, log files and the network of the sites
    (line 135, not used for the features) are left out. *)
From Coq Require Import QArith Qround.
From Verif Require Export M_config M_simdata.
Set Implicit Arguments.
Unset Strict Implicit.
Open Scope nat_scope.

(** ** The configuration *)
Inductive setting := Num (q : Q) | Text (s : str).
Definition required : setting := Text (s_ "<REQUIRED>").
Definition is_required (x : setting) : bool := match x with Text s => str_eqb s (s_ "<REQUIRED>") | Num _ => false end.
(** config/default_config_simulation.json *)
Definition default_config : dict setting :=
  [(s_ "canvas", Leaf required); (s_ "results", Dict [(s_ "path", Leaf (Text []))]); (s_ "n_features", Leaf (Num 20));
   (s_ "n_states", Dict [(s_ "2", Leaf (Num (4 # 10))); (s_ "3", Leaf (Num (3 # 10))); (s_ "4", Leaf (Num (3 # 10)))]);
   (s_ "cluster_effect", Leaf required); (s_ "confounding_effects", Leaf required)].
(** simulation.py:81-92, 105-112 -- [load_config_simulation] and [verify_config]; [None]: NameError *)
Definition load_config_simulation (user : dict setting) : option (dict setting) :=
  let config := set_defaults user default_config in
  if existsb (fun '(_, x, _) => is_required x) (iter_items_recursive config) then None else Some config.

(** [config['n_features']] *)
Definition n_features_of (config : dict setting) : option nat :=
  match M_config.get (s_ "n_features") config with
  | Some (Leaf (Num q)) => if (Qden q =? 1)%positive && (0 <=? Qnum q)%Z then Some (Z.to_nat (Qnum q)) else None
  | _ => None
  end.
(** The items of [config['n_states']], with [int] of the keys ([int_of]; [None]: ValueError). *)
Definition n_states_of (int_of : str -> option nat) (config : dict setting) : option (list (nat * Q)) :=
  match M_config.get (s_ "n_states") config with
  | Some (Dict items) => all_opt' (map (fun '(k, v) => match int_of k, v with Some n, Leaf (Num q) => Some (n, q) | _, _ => None end) items)
  | _ => None
  end.
(** The keys of [config['confounding_effects']] *)
Definition confounders_of (config : dict setting) : option (list str) :=
  match M_config.get (s_ "confounding_effects") config with Some (Dict items) => Some (map fst items) | _ => None end.

(** ** preprocessing.py:334-345 -- the numbers of states of the features *)
(** [int(config['n_features'] * v)]; the list is empty for negative numbers *)
Definition count (n : nat) (v : Q) : nat := Z.to_nat (Qfloor (inject_Z (Z.of_nat n) * v)).
Definition listed (n : nat) (n_states : list (nat * Q)) : list nat := flat_map (fun '(k, v) => repeat k (count n v)) n_states.
(** Lines 341-345: [picks] are the positions drawn by [np.random.choice] (ValueError for an empty list), [shuffle] is the
    order made by [random.shuffle]. *)
Definition states_per_feature (n : nat) (n_states : list (nat * Q)) (picks shuffle : list nat) : option (list nat) :=
  let base := listed n n_states in
  let full := if length base <? n then match base with [] => None | _ => Some (base ++ map (fun i => nth i base 0) picks) end else Some base in
  option_map (fun l => map (fun i => nth i l 0) shuffle) full.

(** ** preprocessing.py:347-377 -- the probabilities of the groups of one component; [draw g f] is the result of
    [np.random.dirichlet] for group [g] and feature [f] *)
Definition assignment_probabilities (n max_states : nat) (per_feature : list nat) (groups : nat) (draw : nat -> nat -> list Q) : list effect :=
  map (fun g => map (fun f => map (fun s => if s <? nth f per_feature 0 then nth s (draw g f) 0%Q else 0%Q) (seq 0 max_states)) (seq 0 n)) (seq 0 groups).

(** ** simulation.py:128-151 -- [run_simulation] *)
Record draws := { dr_picks : list nat; dr_shuffle : list nat;
  dr_weights : list (list Q);                                   (** preprocessing.py:321 *)
  dr_probs : nat -> nat -> nat -> list Q;                       (** component, group, feature *)
  dr_uniform : nat -> nat -> Q }.                               (** preprocessing.py:232, feature and site *)
Record simulation := { sm_sites : sites; sm_n : nat; sm_states : list nat; sm_max : nat; sm_groups : list bmat; sm_probs : list (list effect);
  sm_features : list (list nat) }.
Section Run.
Variable parse : str -> option Q.
Variable parse_int : str -> option Z.
Variable int_of : str -> option nat.
(** [None]: an exception (line 348: [max] of an empty list; simulation.py:223: the weights do not sum to one) *)
Definition run_simulation (config : dict setting) (rows : list (list str)) (dr : draws) : option simulation :=
  match n_features_of config, n_states_of int_of config, confounders_of config with
  | Some n, Some n_states, Some ks =>
      match load_canvas parse parse_int ks rows, states_per_feature n n_states (dr_picks dr) (dr_shuffle dr) with
      | Some si, Some (s :: r) =>
          let per_feature := s :: r in
          let max_states := fold_right Nat.max 0 per_feature in
          let groups := assign_to_cluster (si_cluster si) :: map (fun c => assign_to_confounder (snd c)) (si_confounders si) in
          let probs := mapi (fun c g => assignment_probabilities n max_states per_feature (length g) (dr_probs dr c)) groups in
          if forallb (fun w => isclose (Qsum w) 1) (dr_weights dr)
          then Some {| sm_sites := si; sm_n := n; sm_states := per_feature; sm_max := max_states; sm_groups := groups; sm_probs := probs;
                       sm_features := map (fun o => map (fun f =>
                         sim_feature max_states (dr_weights dr) (combine groups probs) (dr_uniform dr f o) f o) (seq 0 n)) (seq 0 (length (si_id si))) |}
          else None
      | _, _ => None
      end
  | _, _, _ => None
  end.
End Run.
