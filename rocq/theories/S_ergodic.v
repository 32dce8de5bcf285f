(** Specification for C75 and C76: irreducibility and convergence of the sampler of clusters and sources. *)
From Coq Require Import Reals Qreals.
From Verif Require Import M_source S_model S_operators S_source S_mcmc S_honest S_gsource.
Set Implicit Arguments.
Unset Strict Implicit.
Open Scope R_scope.

(** The probability of being in [y] after [n] steps from [x], for the transition matrix [P] on [states]. *)
Section Steps.
Variable T : Type.
Variable dec : forall x y : T, {x = y} + {x <> y}.
Variables (P : T -> T -> R) (states : list T).
Fixpoint nstep (n : nat) (x y : T) : R :=
  match n with
  | 0%nat => if dec x y then 1 else 0
  | Datatypes.S m => Rsum (map (fun z => P x z * nstep m z y) states)
  end.
(** A probability distribution on [states] that one step does not change. *)
Definition stationary_distribution (mu : T -> R) : Prop :=
  (forall x, In x states -> 0 <= mu x) /\ Rsum (map mu states) = 1 /\
  forall y, In y states -> Rsum (map (fun x => mu x * P x y) states) = mu y.
End Steps.

(** Cluster operators that can exchange the members of a cluster one by one without leaving the range of
    sizes: the second Gibbs-ish operator always, the others if the range has at least two sizes (and
    [AlterCluster] if it also grows to objects that are not connected). *)
Definition capable (e : env) (o : operator) : Prop :=
  match o with
  | OpGibbsish2 => True
  | OpGibbsish => (e_min e < e_max e)%nat
  | OpAlter => (e_min e < e_max e)%nat /\ (e_pconn e < 1)%Q
  end.
(** The schedule of the sampler: probabilities, some for the source operator and for a capable operator. *)
Definition full_schedule (e : env) (moves : list (R * move)) : Prop :=
  Rsum (map fst moves) = 1 /\ (forall w m, In (w, m) moves -> 0 <= w) /\
  (exists w, In (w, Source) moves /\ 0 < w) /\
  (exists w o, In (w, Cluster o) moves /\ 0 < w /\ capable e o).
