(** Specification: the exact frequencies of the operators. *)
From Coq Require Import List ZArith Reals.
From Verif Require Import Base M_float S_float M_fchoice.
Import ListNotations.
Set Implicit Arguments.
Unset Strict Implicit.
Local Open Scope R_scope.

(** A configured frequency: zero, or between 2^-400 and 2^400. *)
Definition frequency (x : dbl) : Prop := Binary.is_finite 53 1024 x = true /\ (val x = 0 \/ / 2 ^ 400 <= val x <= 2 ^ 400).
Definition all_frequencies (c : frequencies) : Prop :=
  frequency (f_clusters c) /\ frequency (f_weights c) /\ frequency (f_cluster_effect c) /\ frequency (f_confounding_effects c) /\ frequency (f_source c).

(** The frequency of every operator: the clusters are shared by two operators with source sampling,
    the confounding effects are shared by the confounders. *)
Definition exact_frequencies (sample_source : bool) (n : nat) (c : frequencies) : list R :=
  (if sample_source then [val (f_clusters c) / 2; val (f_clusters c) / 2; val (f_source c); val (f_weights c); val (f_cluster_effect c)]
   else [val (f_clusters c); val (f_weights c); val (f_cluster_effect c)])
  ++ repeat (val (f_confounding_effects c) / INR n) n.
