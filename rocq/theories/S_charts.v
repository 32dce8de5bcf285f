(** Specification for C81: quantities of a sample that do not depend on the labels of the clusters. *)
From Verif Require Import Base.
Set Implicit Arguments.
Unset Strict Implicit.

(** The object is in no cluster; the two objects are in the same cluster. *)
Definition free (o : nat) (clusters : list (list bool)) : bool := negb (existsb (fun c => nth o c false) clusters).
Definition together (p q : nat) (clusters : list (list bool)) : bool := existsb (fun c => nth p c false && nth q c false) clusters.
