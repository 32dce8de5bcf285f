(** Specification: what drawing a component at random should do, in real numbers. *)
From Coq Require Import List ZArith Reals Permutation.
From Flocq Require Import IEEE754.BinarySingleNaN IEEE754.Binary.
From Verif Require Import Base M_float.
Import ListNotations.
Set Implicit Arguments.
Unset Strict Implicit.
Local Open Scope R_scope.

(** The real number a double stands for. *)
Definition val (x : dbl) : R := B2R 53 1024 x.
(** A number and not NaN or infinite, between 0 and 1. *)
Definition fraction (x : dbl) : Prop := is_finite 53 1024 x = true /\ 0 <= val x <= 1.

Fixpoint total (l : list R) : R := match l with [] => 0 | x :: r => x + total r end.
(** The probability of entry [i] if the entries [v] are weights. *)
Definition share (v : list R) (i : nat) : R := nth i v 0 / total v.

(** The exact weight of a component times its likelihood: zero if it is not available. *)
Definition exact_terms (has : list bool) (w lh : list dbl) : list R :=
  map2 (fun (h : bool) x => if h then x else 0) has (map2 (fun a b => val a * val b) w lh).

(** A summation order that uses every position of a row of length [n] once. *)
Definition order_of (o : order) (n : nat) : Prop := Permutation (leaves o) (seq 0 n).

(** How many of the numbers 0, ..., n-1 satisfy [f]. *)
Fixpoint count (f : Z -> bool) (n : nat) : nat :=
  match n with O => O | Datatypes.S m => ((if f (Z.of_nat m) then 1 else 0) + count f m)%nat end.
(** The number of values [np.random.random] can take, all equally likely. *)
Definition draws : nat := Z.to_nat (2 ^ 53).
(** The probability that a draw satisfies [f]. *)
Definition probability (f : Z -> bool) : R := INR (count f draws) / INR draws.
