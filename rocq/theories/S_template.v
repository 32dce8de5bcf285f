(** Specification for C108: completing the template of a configuration file. *)
From Coq Require Import QArith.
From Verif Require Import M_settings.
Set Implicit Arguments.
Unset Strict Implicit.
Open Scope nat_scope.

Definition marker (s : string) (x : json) : bool := match x with Leaf (Str t) => str_eqb t (s_ s) | _ => false end.
(** What becomes of a place marked as optional. *)
Inductive choice := Deleted | Null_written | Left_as_it_is.
(** The template [t], completed: required values are those of [answer] (by their path), optional ones are treated as in [choose]. *)
Section Complete.
Variables (answer : list str -> json) (choose : list str -> choice).
Fixpoint complete (path : list str) (t : json) : json :=
  match t with
  | Leaf _ => if marker "<REQUIRED>" t then answer path else t
  | Dict d => Dict (
      (fix entries (l : dict value) : dict value :=
         match l with
         | [] => []
         | (k, x) :: r =>
             if marker "<OPTIONAL>" x then
               match choose (path ++ [k]) with
               | Deleted => entries r
               | Null_written => (k, Leaf Null) :: entries r
               | Left_as_it_is => (k, x) :: entries r
               end
             else (k, complete (path ++ [k]) x) :: entries r
         end) d)
  end.
End Complete.
Definition completed (answer : list str -> json) (choose : list str -> choice) (t : dict value) : dict value :=
  match complete answer choose [] (Dict t) with Dict d => d | Leaf _ => [] end.

(** The file with nothing but the answers, and what cannot be left out (C92: confounders, sample_source). *)
Definition answers_only (answer : list str -> json) : dict value :=
  [(s_ "data", Dict [(s_ "features", answer (map s_ ["data"; "features"]%string)); (s_ "feature_states", answer (map s_ ["data"; "feature_states"]%string))]);
   (s_ "model", Dict [(s_ "confounders", Dict []); (s_ "sample_source", Leaf (Bool true));
      (s_ "prior", Dict [(s_ "confounding_effects", answer (map s_ ["model"; "prior"; "confounding_effects"]%string)); (s_ "cluster_effect", Dict []); (s_ "geo", Dict []);
         (s_ "objects_per_cluster", Dict [(s_ "type", answer (map s_ ["model"; "prior"; "objects_per_cluster"; "type"]%string))]); (s_ "weights", Dict [])])]);
   (s_ "mcmc", Dict [])].

(** There is a setting or a section at the path. *)
Fixpoint has_path (t : json) (path : list str) : Prop :=
  match path with
  | [] => True
  | k :: r => match t with Dict d => exists x, In (k, x) d /\ has_path x r | Leaf _ => False end
  end.
(** Settings the user names: confounders and their priors, parameters of a Dirichlet prior. *)
Definition named_by_user (path : list str) : Prop :=
  exists r, path = s_ "model" :: s_ "confounders" :: r \/ path = s_ "model" :: s_ "prior" :: s_ "confounding_effects" :: r \/
    path = s_ "model" :: s_ "prior" :: s_ "cluster_effect" :: s_ "parameters" :: r \/ path = s_ "model" :: s_ "prior" :: s_ "weights" :: s_ "parameters" :: r.
