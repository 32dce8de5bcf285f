(** Model: the random walk of weights and effects in double precision --
    sbayes/sampling/operators.py:102-265 (DirichletOperator, AlterWeights, AlterClusterEffect,
    AlterConfoundingEffects); numbers and operations as in M_float.v. *)
From Coq Require Import List ZArith Bool.
From Flocq Require Import IEEE754.BinarySingleNaN IEEE754.Binary IEEE754.Bits.
From Verif Require Import Base M_float.
Import ListNotations.
Set Implicit Arguments.
Unset Strict Implicit.

(** operators.py:124 -- [np.random.dirichlet] for two entries: two gamma variates are added, and both are
    multiplied by the inverse of the sum. Simplification: the variates are arguments; how they are drawn
    (and how they depend on [alpha], line 123) is not modelled. *)
Definition random_dirichlet (g1 g2 : dbl) : dbl * dbl :=
  let r := div one (add g1 g2) in (mul g1 r, mul g2 r).

(** One call of the operator on one row: the positions of the two entries, the two gamma variates, and
    whether the step is accepted (mcmc.py:321-363; the rule itself is not part of this model). *)
Record change : Type := { ch_i : nat; ch_j : nat; ch_g1 : dbl; ch_g2 : dbl; ch_accept : bool }.

(** Assignment to one entry; [w[f_id, weights_to_alter] = w_new] in operators.py:175 assigns two. *)
Fixpoint set_entry (i : nat) (x : dbl) (row : list dbl) : list dbl :=
  match row, i with
  | [], _ => []
  | _ :: r, O => x :: r
  | y :: r, S i' => y :: set_entry i' x r
  end.

(** operators.py:156-175, 199-218, 239-262 -- the proposed row: the two entries become the draw times their
    sum. If the draw is not finite, the step is rejected (lines 130-135: Q_REJECT). The densities log_q and
    log_q_back (lines 125, 128) only matter for the acceptance. *)
Definition proposed (c : change) (row : list dbl) : option (list dbl) :=
  let '(p, q) := random_dirichlet (ch_g1 c) (ch_g2 c) in
  let s := add (nth (ch_i c) row zero) (nth (ch_j c) row zero) in
  if is_finite 53 1024 p && is_finite 53 1024 q
  then Some (set_entry (ch_j c) (mul q s) (set_entry (ch_i c) (mul p s) row))
  else None.

(** mcmc.py:321-363 -- one step: the row of the proposal if it is accepted, the old row otherwise. *)
Definition change_row (row : list dbl) (c : change) : list dbl :=
  match proposed c row with Some row' => if ch_accept c then row' else row | None => row end.

(** mcmc.py:255-299 -- the steps of a run that concern one row. Without source sampling these operators are
    the only ones that change weights and effects (sbayes_sampling.py:433-457). *)
Definition change_rows (cs : list change) (row : list dbl) : list dbl := fold_left change_row cs row.
