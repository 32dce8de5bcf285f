(** Model: the Metropolis-Hastings decision in double precision -- sbayes/sampling/mcmc.py:342-354 and
    366-386; numbers and operations as in M_float.v. *)
From Coq Require Import List ZArith Bool.
From Flocq Require Import IEEE754.BinarySingleNaN IEEE754.Binary IEEE754.Bits.
From Verif Require Import Base M_float M_fchoice.
Set Implicit Arguments.
Unset Strict Implicit.

(** mcmc.py:343, 345 -- [x == -np.inf]. *)
Definition minus_inf (x : dbl) : bool := match x with B754_infinity _ _ true => true | _ => false end.

(** mcmc.py:366-386 -- [metropolis_hastings_ratio]. *)
Definition mh_ratio (ll_new ll_prev prior_new prior_prev log_q log_q_back temperature : dbl) : dbl :=
  let ll_ratio := sub ll_new ll_prev in
  let log_q_ratio := sub log_q log_q_back in
  let prior_ratio := sub prior_new prior_prev in
  add (sub (mul ll_ratio temperature) log_q_ratio) prior_ratio.

Section Log.
(** mcmc.py:352 -- [math.log], the function of the C library; it is not specified by IEEE 754, so it is an
    argument here and its error is a hypothesis of the theorems. *)
Variable lib_log : dbl -> dbl.

(** mcmc.py:342-354 -- the decision for the draw [random.random() = k * 2^-53]; the temperature has its
    default 1 (line 347). [None]: [math.log(0.)] raises ValueError. *)
Definition decide (ll_new ll_prev prior_new prior_prev log_q log_q_back : dbl) (k : Z) : option bool :=
  if minus_inf log_q_back then Some false
  else if minus_inf log_q then Some true
  else if (k =? 0)%Z then None
  else Some (ltb (lib_log (uniform k)) (mh_ratio ll_new ll_prev prior_new prior_prev log_q log_q_back one)).
End Log.
