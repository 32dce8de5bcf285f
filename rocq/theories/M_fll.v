(** Model: the log-likelihood in double precision -- sbayes/model/likelihood.py:45-83 ([__call__] and
    [get_observation_lhs]) with the weights of likelihood.py:180-198; numbers, operations and summation
    orders as in M_float.v. *)
From Coq Require Import List ZArith Bool.
From Flocq Require Import IEEE754.BinarySingleNaN IEEE754.Binary IEEE754.Bits.
From Verif Require Import Base M_float.
Import ListNotations.
Set Implicit Arguments.
Unset Strict Implicit.

(** likelihood.py:57-63 -- what enters for one object and feature: which components the object has, the weights
    of the feature, the likelihood of the observation under each component, and its source (line 80).
    Simplification: the arrays of the program are read cell by cell; how the component likelihoods are
    computed and cached is in other files of the model. *)
Record cell : Type := Cell { has : list bool; weights : list dbl; lhs : list dbl; source : list bool }.

(** likelihood.py:78 -- [np.sum(weights * all_lh, axis=2)] for one cell. *)
Definition mixed (o1 o2 : order) (c : cell) : dbl := sum_in o2 (map2 mul (site_weights o1 (has c) (weights c)) (lhs c)).

(** likelihood.py:80-83 -- the likelihoods of one cell at the positions where the source is true: one value, or
    none for a missing observation without source. *)
Definition at_source (c : cell) : list dbl := map snd (filter fst (combine (source c) (lhs c))).

(** likelihood.py:70-83 -- [get_observation_lhs]; [with_source]: whether the sample has a source array. *)
Definition observation_lhs (with_source : bool) (o1 o2 : order) (cells : list cell) : list dbl :=
  if with_source then flat_map at_source cells else map (mixed o1 o2) cells.

Section Log.
(** likelihood.py:66 -- [np.log] of one element: an argument, like [math.log] in M_faccept.v. *)
Variable np_log : dbl -> dbl.

(** likelihood.py:66 -- [np.sum(np.log(observation_lhs))]; the order of the sum is an argument. Simplification:
    the sum of no element at all is 0 in the program and not covered by an order; the theorems are about
    at least one observation. *)
Definition log_lh (o3 : order) (obs : list dbl) : dbl := sum_in o3 (map np_log obs).

(** likelihood.py:45-68 -- [__call__] without the cache. *)
Definition log_likelihood (with_source : bool) (o1 o2 o3 : order) (cells : list cell) : dbl :=
  log_lh o3 (observation_lhs with_source o1 o2 cells).
End Log.
