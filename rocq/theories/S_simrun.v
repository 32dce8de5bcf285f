(** What is expected of a simulation. *)
From Coq Require Import Permutation.
From Verif Require Import M_simrun.
Set Implicit Arguments.
Unset Strict Implicit.

Definition times (n : nat) (v : Q) : Q := (inject_Z (Z.of_nat n) * v)%Q.
Definition fractions (n_states : list (nat * Q)) : Prop :=
  Forall (fun kv => (0 <= snd kv)%Q) n_states /\ (Qsum (map snd n_states) == 1)%Q.
(** What the random number generators return: one position of the list for every missing feature, a permutation. *)
Definition possible (n : nat) (n_states : list (nat * Q)) (picks shuffle : list nat) : Prop :=
  length picks = n - length (listed n n_states) /\ Forall (fun i => i < length (listed n n_states)) picks /\
  Permutation shuffle (seq 0 (Nat.max n (length (listed n n_states)))).
(** ... points of the simplex with as many entries as the feature has states, uniform numbers. *)
Definition simplex_point (n : nat) (p : list Q) : Prop := length p = n /\ Forall (fun q => (0 <= q)%Q) p /\ (Qsum p == 1)%Q.
Definition fair (sm : simulation) (dr : draws) : Prop :=
  length (dr_weights dr) = sm_n sm /\
  Forall (fun w => length w = S (length (si_confounders (sm_sites sm))) /\ Forall (fun q => (0 < q)%Q) w) (dr_weights dr) /\
  (forall c g f, f < sm_n sm -> simplex_point (nth f (sm_states sm) 0) (dr_probs dr c g f)) /\
  (forall f o, (0 <= dr_uniform dr f o)%Q /\ (dr_uniform dr f o < 1)%Q).
(** A canvas: a header and rows of the same length. *)
Definition rectangular (rows : list (list str)) : Prop :=
  match rows with [] => False | h :: b => h <> [] /\ Forall (fun r => length r = length h) b end.
