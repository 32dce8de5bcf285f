(** Specification for C65 and C66: connecting the objects of a cluster at least cost. *)
From Coq Require Import QArith Reals Qreals Permutation Sorted.
From Verif Require Export M_geo.
Set Implicit Arguments.
Unset Strict Implicit.
Open Scope Q_scope.

(** What [np.argsort] may return: some arrangement by increasing cost. *)
Definition argsorts (sort : list edge -> list edge) : Prop :=
  forall l, Permutation l (sort l) /\ StronglySorted (fun x y => cost_of x <= cost_of y) (sort l).

(** Positions connected by a set of edges. *)
Inductive joined (es : list edge) : nat -> nat -> Prop :=
| j_refl u : joined es u u
| j_edge u v q : In (u, v, q) es -> joined es u v
| j_sym u v : joined es u v -> joined es v u
| j_trans u v w : joined es u v -> joined es v w -> joined es u w.

(** Edges of the cost matrix that connect all positions. *)
Definition is_edge (m : costs) (x : edge) : Prop :=
  let '(i, j, q) := x in exists r, nth_error m i = Some r /\ nth_error r j = Some (Some q).
Definition connects (m : costs) (t : list edge) : Prop :=
  Forall (is_edge m) t /\ forall u v, (u < length m)%nat -> (v < length m)%nat -> joined t u v.

(** Square matrices with non-negative costs. *)
Definition square (m : costs) : Prop := Forall (fun r => length r = length m) m.
Definition nonneg (m : costs) : Prop := forall i j r q, nth_error m i = Some r -> nth_error r j = Some (Some q) -> 0 <= q.
Definition finite (m : costs) : Prop := forall i j r c, nth_error m i = Some r -> nth_error r j = Some c -> c <> None.
(** Distinct objects have positive cost. *)
Definition positive_costs (m : costs) : Prop :=
  forall i j r q, nth_error m i = Some r -> nth_error r j = Some (Some q) -> i <> j -> 0 < q.

(** Entry-wise smaller costs. *)
Definition cost_le (a b : option Q) : Prop :=
  match a, b with Some x, Some y => x <= y | _, None => True | None, Some _ => False end.
Definition costs_le (m m' : costs) : Prop := Forall2 (Forall2 cost_le) m m'.

Definition antitone (pf : Q -> R) : Prop := forall a b, a <= b -> (pf b <= pf a)%R.
Definition members (z : list bool) : nat := count_occ bool_dec z true.
