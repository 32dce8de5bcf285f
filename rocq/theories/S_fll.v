(** Specification: the exact log-likelihood of a mixture, and what is asked of a logarithm. *)
From Coq Require Import List ZArith Reals.
From Flocq Require Import IEEE754.BinarySingleNaN IEEE754.Binary.
From Verif Require Import Base M_float S_float M_fll.
Import ListNotations.
Set Implicit Arguments.
Unset Strict Implicit.
Local Open Scope R_scope.

(** A logarithm with relative error at most 2^-52 on all positive doubles, and minus infinity at zero. *)
Definition good_log (f : dbl -> dbl) : Prop :=
  (forall x, is_finite 53 1024 x = true -> 0 < val x -> is_finite 53 1024 (f x) = true /\ Rabs (val (f x) - ln (val x)) <= Rabs (ln (val x)) / 2 ^ 52) /\
  (forall x, is_finite 53 1024 x = true -> val x = 0 -> f x = B754_infinity 53 1024 true).

(** The weight of the components that are available. *)
Definition available (h : list bool) (w : list dbl) : R := total (map2 (fun (b : bool) x => if b then val x else 0) h w).
(** The exact likelihood of one observation: the mean of the likelihoods with the available weights. *)
Definition exact_lh (c : cell) : R := total (exact_terms (has c) (weights c) (lhs c)) / available (has c) (weights c).
(** Logarithms, their sum and the sum of their sizes. *)
Definition sum_ln (l : list R) : R := total (map ln l).
Definition size_ln (l : list R) : R := total (map (fun x => Rabs (ln x)) l).

(** One cell with [n] components: numbers between 0 and 1, and some available weight. *)
Definition proper (n : nat) (c : cell) : Prop :=
  length (has c) = n /\ length (weights c) = n /\ length (lhs c) = n /\ Forall fraction (weights c) /\ Forall fraction (lhs c) /\ 0 < available (has c) (weights c).
(** No weight and no likelihood is tiny without being zero. *)
Definition not_tiny (x : dbl) : Prop := val x = 0 \/ / 2 ^ 400 <= val x.
(** A source row: the component [s], or nothing for a missing observation; and the likelihood at the source. *)
Definition marks (n : nat) (s : option nat) : list bool := map (fun i => match s with Some j => Nat.eqb j i | None => false end) (seq 0 n).
Definition chosen (cs : cell * option nat) : list dbl := match snd cs with Some j => [nth j (lhs (fst cs)) zero] | None => [] end.
