(** Specification: the exact acceptance probability. *)
From Coq Require Import List ZArith Reals.
From Flocq Require Import IEEE754.BinarySingleNaN IEEE754.Binary.
From Verif Require Import Base M_float S_float.
Set Implicit Arguments.
Unset Strict Implicit.
Local Open Scope R_scope.

(** A logarithm with relative error at most 2^-52 on the draws of the random generator. *)
Definition accurate (lib_log : dbl -> dbl) : Prop :=
  forall k, (0 < k < 2 ^ 53)%Z -> is_finite 53 1024 (lib_log (uniform k)) = true /\ Rabs (val (lib_log (uniform k)) - ln (IZR k / 2 ^ 53)) <= Rabs (ln (IZR k / 2 ^ 53)) / 2 ^ 52.

(** The logarithm of the Metropolis-Hastings ratio, and the acceptance probability. *)
Definition exact_ratio (ll_new ll_prev prior_new prior_prev log_q log_q_back : R) : R :=
  (ll_new - ll_prev) + (prior_new - prior_prev) + (log_q_back - log_q).
Definition exact_probability (r : R) : R := Rmin 1 (exp r).

(** The size of the three differences. *)
Definition size (ll_new ll_prev prior_new prior_prev log_q log_q_back : R) : R :=
  Rabs (ll_new - ll_prev) + Rabs (prior_new - prior_prev) + Rabs (log_q - log_q_back).
