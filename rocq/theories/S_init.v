(** Specification for C22-C24: initial clusters and effects. *)
From Verif Require Export M_init S_operators.
Set Implicit Arguments.
Unset Strict Implicit.
Open Scope nat_scope.

Definition member (c : list bool) (o : nat) : Prop := nth o c false = true.
(** Neighbours in the network. *)
Definition edge (adj : bmat) (a b : nat) : Prop := member (nth a adj []) b \/ member (nth b adj []) a.
Definition symmetric (adj : bmat) : Prop := forall a b, member (nth a adj []) b -> member (nth b adj []) a.
(** A path between members of [c] inside [c]. *)
Inductive linked (adj : bmat) (c : list bool) : nat -> nat -> Prop :=
| linked_refl : forall a, member c a -> linked adj c a a
| linked_step : forall a b d, linked adj c a b -> member c d -> edge adj b d -> linked adj c a d.
Definition connected (adj : bmat) (c : list bool) : Prop :=
  forall a b, member c a -> member c b -> linked adj c a b.
(** [c] has no object in common with any of the clusters. *)
Definition apart (c : list bool) (cl : bmat) : Prop := forall o i, member c o -> ~ member (nth i cl []) o.

Open Scope Q_scope.
(** A probability vector that is positive on the applicable states and zero elsewhere. *)
Definition on_states (applicable : list bool) (v : list Q) : Prop :=
  length v = length applicable /\ Qsum v == 1 /\
  forall s q a, nth_error v s = Some q -> nth_error applicable s = Some a -> if a : bool then 0 < q else q == 0.
(** Observed states are applicable states. *)
Definition observed_applicable (features : cube) (applicable : list (list bool)) : Prop :=
  forall o f s, nth s (nth f (nth o features []) []) false = true -> nth s (nth f applicable []) false = true.

(** config.py:152-156, 315 -- the conditions on the size bounds and the initial size that are checked:
    positive integers. *)
Definition sizes_validated (min_size max_size initial_size : nat) : Prop :=
  (0 < min_size)%nat /\ (0 < max_size)%nat /\ (0 < initial_size)%nat.
