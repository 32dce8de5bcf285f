(** Specification for C77: averages over the logged samples of a run. *)
From Coq Require Import Reals.
From Verif Require Import Base S_mcmc S_ergodic.
Set Implicit Arguments.
Unset Strict Implicit.
Open Scope R_scope.

Section Paths.
Variable T : Type.
Variables (P : T -> T -> R) (states : list T).
(** The expectation of [F (X1, .., Xn)] over the runs of [n] steps that start in [x]: step by step with the
    transition matrix [P]. *)
Fixpoint path_mean (n : nat) (x : T) (F : list T -> R) : R :=
  match n with
  | 0%nat => F []
  | Datatypes.S m => Rsum (map (fun y => P x y * path_mean m y (fun l => F (y :: l))) states)
  end.
(** The probability of an event. *)
Definition path_prob (n : nat) (x : T) (A : list T -> bool) : R := path_mean n x (fun l => if A l then 1 else 0).
End Paths.

(** The samples of the steps (counted from 0) with [log i]. *)
Fixpoint kept {A} (log : nat -> bool) (l : list A) : list A :=
  match l with
  | [] => []
  | x :: r => if log 0%nat then x :: kept (fun i => log (Datatypes.S i)) r else kept (fun i => log (Datatypes.S i)) r
  end.
Definition n_logged (log : nat -> bool) (n : nat) : nat := length (filter log (seq 0 n)).
(** Every [s]-th step is logged, starting with the first (mcmc.py:284, C20). *)
Definition every (s : nat) (i : nat) : bool := Nat.eqb (i mod s) 0.

Definition average {T} (f : T -> R) (l : list T) : R := Rsum (map f l) / INR (length l).
Definition far (eps a b : R) : bool := if Rlt_dec (Rabs (a - b)) eps then false else true.
