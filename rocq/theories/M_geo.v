(** The geo-prior: minimum spanning trees of the costs within clusters.
    Costs are exact numbers; [None] is an infinite cost ([np.inf]).  NaN costs are not modelled. *)
From Coq Require Import QArith Reals Qreals.
From Verif Require Export Base M_model.
Set Implicit Arguments.
Unset Strict Implicit.
Open Scope Q_scope.

Definition costs := list (list (option Q)).
(** An edge: two positions within the cluster and a cost. *)
Definition edge := (nat * nat * Q)%type.
Definition cost_of (x : edge) : Q := snd x.

(** Boolean indexing [a[z]] of numpy. *)
Fixpoint mask {A} (z : list bool) (l : list A) : list A :=
  match z, l with
  | b :: z', x :: l' => if b then x :: mask z' l' else mask z' l'
  | _, _ => []
  end.
(** prior.py:639 -- [cost_mat[z][:, z]]. *)
Definition cost_mat_z (m : costs) (z : list bool) : costs := map (mask z) (mask z m).

(** prior.py:642 -- [csgraph_from_dense(cost_mat_z, null_value=np.inf)]: the finite entries, zeros and the
    diagonal included. *)
Definition csgraph (m : costs) : list edge :=
  concat (mapi (fun i r => concat (mapi (fun j c => match c with Some q => [(i, j, q)] | None => [] end) r)) m).

(** prior.py:643 -- scipy's [minimum_spanning_tree]: the entries are visited in the order of an argsort
    of their costs; an entry is kept if it joins two components.  [lab] gives the component of each
    position (scipy: a union-find forest); [left] counts down from n - 1 and ends the loop. *)
Definition relabel (a b : nat) (lab : list nat) : list nat := map (fun l => if Nat.eqb l a then b else l) lab.
Fixpoint kruskal (left : nat) (lab : list nat) (es : list edge) : list edge :=
  match left, es with
  | S left', ((i, j, q) as x) :: r =>
      let a := nth i lab 0%nat in let b := nth j lab 0%nat in
      if Nat.eqb a b then kruskal left lab r else x :: kruskal left' (relabel a b lab) r
  | _, _ => []
  end.
Definition spanning_tree (sort : list edge -> list edge) (m : costs) : list edge :=
  kruskal (length m - 1) (seq 0 (length m)) (sort (csgraph m)).

(** prior.py:645-649 -- the costs of the tree; entries with cost zero are not part of scipy's sparse result
    ([eliminate_zeros]); [[0.0]] if none is left. *)
Definition distances (sort : list edge -> list edge) (m : costs) : list Q :=
  match filter (fun q => negb (Qeq_bool q 0)) (map cost_of (spanning_tree sort m)) with
  | [] => [0]
  | d => d
  end.

(** prior.py:441-445, config.py:94-97 -- the aggregators ([np.mean], [np.sum], [np.max]). *)
Inductive aggregation := Mean | Sum | Max.
Definition qmax (a b : Q) : Q := if Qle_bool a b then b else a.
Definition aggregate (g : aggregation) (l : list Q) : Q :=
  match g with
  | Mean => Qsum l / inject_Z (Z.of_nat (length l))
  | Sum => Qsum l
  | Max => match l with [] => 0 | x :: r => fold_left qmax r x end
  end.

(** Results of evaluating the geo-prior: a value, "Too few locations" (prior.py:651, ValueError), or the
    AttributeError of [self.TYPES] (prior.py:520; the class has no attribute [TYPES]). *)
Inductive geo_result := GVal (v : R) | TooFew | NoAttribute.

(** prior.py:622-658 -- [compute_cost_based_geo_prior]. *)
Fixpoint cost_based (sort : list edge -> list edge) (g : aggregation) (pf : Q -> R) (m : costs) (clusters : list (list bool)) (acc : R) : geo_result :=
  match clusters with
  | [] => GVal acc
  | z :: r =>
      let mz := cost_mat_z m z in
      if Nat.ltb 1 (length mz) then cost_based sort g pf m r (acc + pf (aggregate g (distances sort mz)))%R
      else TooFew
  end.

(** config.py:88-110 -- the accepted types and skeletons. *)
Inductive geo_type := Uniform | CostBased | DiameterBased.
Inductive skeleton := MST | Delaunay | Diameter | Complete.
Record geo_config := { g_type : geo_type; g_aggregation : aggregation; g_skeleton : skeleton }.

(** prior.py:497-531 -- [GeoPrior.__call__] without the cache (C07); [pf] is the probability function
    (485-495, C51).  The skeleton is never looked at. *)
Definition geo_prior (sort : list edge -> list edge) (c : geo_config) (pf : Q -> R) (m : costs) (clusters : list (list bool)) : geo_result :=
  match g_type c with
  | Uniform => GVal 0
  | CostBased => cost_based sort (g_aggregation c) pf m clusters 0
  | DiameterBased => NoAttribute
  end.
