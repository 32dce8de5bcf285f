(** Model: the operator weights and the choice of an operator in double precision --
    sbayes/sampling/sbayes_sampling.py:365-466, sbayes/sampling/mcmc.py:311-319,
    sbayes/config/config.py:268-285; numbers and operations as in M_float.v. *)
From Coq Require Import List ZArith Bool.
From Flocq Require Import IEEE754.BinarySingleNaN IEEE754.Binary IEEE754.Bits.
From Verif Require Import Base M_float.
From Verif Require M_params.
Import ListNotations.
Set Implicit Arguments.
Unset Strict Implicit.

(** Subtraction, absolute value and the test for NaN; used by [np.random.choice] (mcmc.py:315). *)
Definition sub : dbl -> dbl -> dbl := b64_minus mode_NE.
Definition absf : dbl -> dbl := b64_abs.
Definition isnan (x : dbl) : bool := is_nan 53 1024 x.

(** config.py:268-285 -- the configured frequencies. *)
Record frequencies : Type := { f_clusters : dbl; f_weights : dbl; f_cluster_effect : dbl; f_confounding_effects : dbl; f_source : dbl }.

(** The literal 0.5 (sbayes_sampling.py:387, 396) and [1 / len(confounders)] (lines 420, 449). *)
Definition half : dbl := scaled 1 (-1).
Definition per_confounder (n : nat) : dbl := div one (scaled (Z.of_nat n) 0).

(** sbayes_sampling.py:365-457 -- the weights of the operators before normalization, in the order of the
    dictionary: with source sampling two cluster operators, sources, weights, cluster effect and one operator
    per confounder; without it clusters, weights, cluster effect and one operator per confounder. *)
Definition raw_weights (sample_source : bool) (n : nat) (c : frequencies) : list dbl :=
  if sample_source
  then [mul half (f_clusters c); mul half (f_clusters c); f_source c; f_weights c; f_cluster_effect c]
       ++ repeat (mul (per_confounder n) (f_confounding_effects c)) n
  else [f_clusters c; f_weights c; f_cluster_effect c] ++ repeat (mul (f_confounding_effects c) (per_confounder n)) n.

(** sbayes_sampling.py:464 -- Python's [sum]: from left to right, starting with 0. Simplification: since
    Python 3.12 the built-in compensates rounding errors; here it is the plain loop of the earlier versions. *)
Definition py_sum (l : list dbl) : dbl := fold_left add l zero.
Definition is_zero (x : dbl) : bool := match b64_compare x zero with Some Eq => true | _ => false end.
(** sbayes_sampling.py:463-466 -- [normalize_operator_weights]; [None]: ZeroDivisionError. *)
Definition normalize_weights (l : list dbl) : option (list dbl) :=
  if is_zero (py_sum l) then None else Some (map (fun w => div w (py_sum l)) l).

(** mcmc.py:315 -- [np.random.choice(a, 1, p=p)]. The compensated sum of numpy ([kahan_sum]). *)
Fixpoint kahan_from (s c : dbl) (l : list dbl) : dbl :=
  match l with
  | [] => s
  | x :: r => let y := sub x c in let t := add s y in kahan_from t (sub (sub t s) y) r
  end.
Definition kahan_sum (l : list dbl) : dbl := match l with [] => zero | x :: r => kahan_from x zero r end.
(** The tolerance of numpy, sqrt(2^-52). *)
Definition atol : dbl := scaled 1 (-26).
(** The checks of numpy: not NaN, no negative entry, sum 1 up to the tolerance. *)
Definition checked (p : list dbl) : bool :=
  negb (isnan (kahan_sum p)) && forallb (fun x => negb (ltb x zero)) p && negb (ltb atol (absf (sub (kahan_sum p) one))).
(** [cdf = p.cumsum(); cdf /= cdf[-1]]. *)
Definition cdf (p : list dbl) : list dbl := let c := cumsum p in map (fun x => div x (last c zero)) c.
(** [cdf.searchsorted(z, side='right')]: the first position with an entry above z (the entries do not
    decrease), the length if there is none. *)
Definition searchsorted (z : dbl) (l : list dbl) : nat :=
  match M_params.first_true (map (ltb z) l) with Some i => i | None => length l end.
(** The position drawn; [None]: ValueError of the checks, or IndexError if the position is past the end. *)
Definition choice (k : Z) (p : list dbl) : option nat :=
  if checked p then let i := searchsorted (uniform k) (cdf p) in if Nat.ltb i (length p) then Some i else None else None.

(** mcmc.py:311-319 with the weights of sbayes_sampling.py:365-466 -- [choose_operator]: the position of the
    operator in the dictionary. Without confounders [1 / len(...)] raises ZeroDivisionError (lines 420, 449). *)
Definition choose_operator (sample_source : bool) (n : nat) (c : frequencies) (k : Z) : option nat :=
  if Nat.eqb n 0 then None else
  match normalize_weights (raw_weights sample_source n c) with Some p => choice k p | None => None end.
