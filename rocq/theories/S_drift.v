(** Specification: probability vectors with rounding errors. *)
From Coq Require Import List ZArith Reals.
From Flocq Require Import IEEE754.BinarySingleNaN IEEE754.Binary.
From Verif Require Import Base M_float S_float M_drift.
Import ListNotations.
Set Implicit Arguments.
Unset Strict Implicit.
Local Open Scope R_scope.

(** Finite entries, not negative, with sum 1 up to [tol]. *)
Definition on_simplex (tol : R) (row : list dbl) : Prop :=
  Forall (fun x => is_finite 53 1024 x = true /\ 0 <= val x) row /\ Rabs (total (map val row) - 1) <= tol.

(** Two different positions of a row of length [n], and gamma variates that are finite, not negative and
    not extreme: at most 2^900, with sum at least 2^-900. *)
Definition regular (n : nat) (c : change) : Prop :=
  (ch_i c < n)%nat /\ (ch_j c < n)%nat /\ ch_i c <> ch_j c /\
  is_finite 53 1024 (ch_g1 c) = true /\ is_finite 53 1024 (ch_g2 c) = true /\
  0 <= val (ch_g1 c) <= 2 ^ 900 /\ 0 <= val (ch_g2 c) <= 2 ^ 900 /\ / 2 ^ 900 <= val (ch_g1 c) + val (ch_g2 c).
