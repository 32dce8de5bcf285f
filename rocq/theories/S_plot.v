(** Specifications for the plots (C79-C81), independent of the plotting code. *)
From Coq Require Import QArith.
From Verif Require Import Base.
Set Implicit Arguments.
Unset Strict Implicit.
Close Scope Q_scope.
Open Scope nat_scope.

(** The number and the fraction of the samples with a property. *)
Fixpoint number {A} (P : A -> bool) (l : list A) : nat := match l with [] => 0 | x :: r => (if P x then 1 else 0) + number P r end.
Definition frequency {A} (P : A -> bool) (l : list A) : Q := (inject_Z (Z.of_nat (number P l)) / inject_Z (Z.of_nat (length l)))%Q.
(** A sample of one cluster lists its objects. *)
Definition has (o : nat) (s : list bool) : bool := nth o s false.
Definition has_both (p q : nat) (s : list bool) : bool := has p s && has q s.

(** Samples of several clusters (clusters x samples x objects): object [o] is in cluster [c] of sample [t]. *)
Definition is_in (clusters : list (list (list bool))) (c t o : nat) : Prop := has o (nth t (nth c clusters []) []) = true.
(** In every sample, every object is in at most one cluster (C10). *)
Definition exclusive (clusters : list (list (list bool))) : Prop :=
  forall c c' t o, is_in clusters c t o -> is_in clusters c' t o -> c = c'.
(** Object [o] is in no cluster of sample [t]. *)
Definition in_none (o : nat) (clusters : list (list (list bool))) (t : nat) : bool := forallb (fun c => negb (has o (nth t c []))) clusters.
(** All clusters have the same samples. *)
Definition same_samples (n : nat) (clusters : list (list (list bool))) : Prop := Forall (fun c => length c = n) clusters.

(** [i] is [b * n] rounded up, or rounded down. *)
Definition rounded_up (b : Q) (n i : nat) : Prop :=
  (b * inject_Z (Z.of_nat n) <= inject_Z (Z.of_nat i))%Q /\ (inject_Z (Z.of_nat i) - 1 < b * inject_Z (Z.of_nat n))%Q.
Definition rounded_down (b : Q) (n i : nat) : Prop :=
  (inject_Z (Z.of_nat i) <= b * inject_Z (Z.of_nat n))%Q /\ (b * inject_Z (Z.of_nat n) < inject_Z (Z.of_nat i) + 1)%Q.

(** A triangulation of a list of points: a square matrix without loops. *)
Definition square_matrix {P} (delaunay : list P -> list (list bool)) : Prop :=
  forall ls, length (delaunay ls) = length ls /\ Forall (fun r => length r = length ls) (delaunay ls) /\ forall i, nth i (nth i (delaunay ls) []) false = false.
(** Edges without direction. *)
Definition edge (p q : nat) : nat * nat := (Nat.min p q, Nat.max p q).

(** Squared distance of two points; no point of the list is nearer to the middle of [a] and [b] than 0.999 of half
    their distance (up to this factor, this is the definition of an edge of the Gabriel graph). *)
Definition dist2 (a b : Q * Q) : Q := ((fst a - fst b) * (fst a - fst b) + (snd a - snd b) * (snd a - snd b))%Q.
Definition clear_middle (pts : list (Q * Q)) (a b : Q * Q) : Prop :=
  forall p, In p pts -> ((999 # 1000) * (999 # 1000) * (dist2 a b / 4) <= dist2 p ((fst a + fst b) / 2, (snd a + snd b) / 2))%Q.
