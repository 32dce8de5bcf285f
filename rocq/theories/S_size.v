(** Specification for C35: labelled clusterings with given sizes. *)
From Verif Require Export M_size S_operators.
Set Implicit Arguments.

(** [cl] is a choice of disjoint clusters of the sizes [ks] among [n] objects. *)
Definition clustering (n : nat) (ks : list nat) (cl : bmat) : Prop :=
  cluster_shape (length ks) n cl /\ disjoint_groups cl /\ map (fun c => count_occ Bool.bool_dec c true) cl = ks.
(** [l] lists all of them, each once. *)
Definition lists_clusterings (n : nat) (ks : list nat) (l : list bmat) : Prop :=
  NoDup l /\ forall cl, In cl l <-> clustering n ks cl.
