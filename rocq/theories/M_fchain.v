(** Model: the end of a step of the sampler in double precision -- sbayes/sampling/mcmc.py:331-364; numbers and
    operations as in M_float.v, the decision as in M_faccept.v. *)
From Coq Require Import List ZArith Bool.
From Verif Require Import Base M_float M_fchoice M_faccept.
Set Implicit Arguments.
Unset Strict Implicit.

(** mcmc.py:331-364 -- the state after a step of the chain in state [x]: the operator has returned a candidate
    with its log-probabilities, [k] is the draw of [random.random]. [None] as proposal: the operator has
    returned the sample itself with [Q_BACK_REJECT = -inf] (operators.py:34-35), which is never accepted.
    [None] as result: ValueError of [math.log]. Simplification: log-likelihood and log-prior are functions of
    the state; that the remembered values are those of the current state is C17. *)
Definition next (T : Type) (lib_log : dbl -> dbl) (ll prior : T -> dbl) (x : T) (proposal : option (T * dbl * dbl)) (k : Z) : option T :=
  match proposal with
  | None => Some x
  | Some (y, log_q, log_q_back) =>
      match decide lib_log (ll y) (ll x) (prior y) (prior x) log_q log_q_back k with
      | Some true => Some y
      | Some false => Some x
      | None => None
      end
  end.
