(** Specifications for the plot of the DIC (C96) and for all plots of a process (C97). *)
From Coq Require Import QArith.
From Verif Require Import M_model M_text S_plot2.
Set Implicit Arguments.
Unset Strict Implicit.
Close Scope Q_scope.
Open Scope nat_scope.

(** * C96 *)
(** The value computed from the log-likelihoods of some samples (C47): twice the mean deviance plus the deviance of the best sample. *)
Definition criterion (lhs : list Q) (d : Q) : Prop :=
  exists best, In best lhs /\ (forall x, In x lhs -> x <= best)%Q /\ (d == 2 * average (map (fun x => -(2) * x) lhs) + -(2) * best)%Q.
(** The positions (from 0) of the models that are shown: the given numbers (from 1), or all of [n] models. *)
Definition shown (n : nat) (numbers : list Z) : list nat :=
  match numbers with [] => seq 0 n | _ => map (fun i => Z.to_nat (i - 1)) numbers end.
Definition numbers_ok (n : nat) (numbers : list Z) : Prop := Forall (fun i => 1 <= i <= Z.of_nat n)%Z numbers.
(** [i] is the integer part of [x], [j] the least integer not below. *)
Definition is_floor (x : Q) (i : nat) : Prop := (inject_Z (Z.of_nat i) <= x)%Q /\ (x < inject_Z (Z.of_nat i) + 1)%Q.
Definition is_ceiling (x : Q) (j : nat) : Prop := (x <= inject_Z (Z.of_nat j))%Q /\ (inject_Z (Z.of_nat j) < x + 1)%Q.
