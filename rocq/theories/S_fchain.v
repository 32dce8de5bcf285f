(** Specification for C107: the chain of clusters and sources with decisions in double precision. *)
From Coq Require Import List ZArith Reals Qreals Bool.
From Flocq Require Import IEEE754.BinarySingleNaN IEEE754.Binary.
From Verif Require Import Base M_float S_float M_fchoice S_fchoice M_faccept S_faccept M_fchain.
From Verif Require M_operators S_operators M_mcmc S_mcmc S_honest S_gsource.
Import ListNotations.
Set Implicit Arguments.
Unset Strict Implicit.
Local Open Scope R_scope.

(** A double shows a number of size at most [B] up to the error [eta], or exactly an infinity or NaN. *)
Definition shows (eta B : R) (d : dbl) (v : M_mcmc.xf) : Prop :=
  match v with
  | M_mcmc.Fin r => is_finite 53 1024 d = true /\ Rabs (val d - r) <= eta /\ Rabs r <= B
  | M_mcmc.PInf => d = B754_infinity 53 1024 false
  | M_mcmc.NInf => d = B754_infinity 53 1024 true
  | M_mcmc.NaN => is_nan 53 1024 d = true
  end.

(** The probability that a step ends in [y]; and the same if the draw is not exactly zero. *)
Section Landing.
Variable T : Type.
Variable dec : forall x y : T, {x = y} + {x <> y}.
Definition in_state (y : T) (s : option T) : bool := match s with Some z => if dec z y then true else false | None => false end.
Definition lands (f : Z -> option T) (y : T) : R := probability (fun k => in_state y (f k)).
Definition lands_positive (f : Z -> option T) (y : T) : R :=
  probability (fun k => negb (k =? 0)%Z && in_state y (f k)) / probability (fun k => negb (k =? 0)%Z).
End Landing.

Import M_operators S_operators S_mcmc S_honest S_gsource.
(** The operators of clusters and sources in the order of the dictionary (sbayes_sampling.py:382-412). *)
Definition cluster_moves : list move := [Cluster OpGibbsish; Cluster OpGibbsish2; Source].
(** Their exact frequencies. *)
Definition exact_moves (n : nat) (c : frequencies) : list (R * move) :=
  mapi (fun i m => (share (exact_frequencies true n c) i, m)) cluster_moves.
(** Only clusters and sources are sampled. *)
Definition fixed_parameters (c : frequencies) : Prop :=
  all_frequencies c /\ 0 < val (f_clusters c) /\ 0 < val (f_source c) /\ val (f_weights c) = 0 /\ val (f_cluster_effect c) = 0 /\ val (f_confounding_effects c) = 0.

(** An operator in double precision: in every state a list of proposals with their probabilities. *)
Definition drawing := move -> cstate -> list (option (cstate * dbl * dbl) * R).
(** It makes the proposals of the exact operator, reporting its probabilities up to rounding ... *)
Definition same_proposal (eta B : R) (a : outcome * Q) (b : option (cstate * dbl * dbl) * R) : Prop :=
  match fst a with
  | Propose y q qb => exists lq lqb, fst b = Some (y, lq, lqb) /\ shows eta B lq (xq q) /\ shows eta B lqb (xq qb)
  | _ => fst b = None
  end.
(** ... with probabilities that differ by at most [kappa] in sum, and stays in [states]. *)
Definition rounded_operators (eta B kappa : R) (e : env) (states : list cstate) (D : drawing) : Prop :=
  forall m x, In x states ->
    Forall2 (same_proposal eta B) (run_move e m x) (D m x) /\
    Forall (fun b => 0 <= snd b) (D m x) /\ Rsum (map snd (D m x)) = 1 /\
    Rsum (map2 (fun a b => Rabs (snd b - Q2R (snd a))) (run_move e m x) (D m x)) <= kappa /\
    forall y lq lqb p, In (Some (y, lq, lqb), p) (D m x) -> 0 < p -> In y states.

(** The numbers of the program: likelihood, prior and operators up to rounding. *)
Definition rounded_sampler (eta B kappa : R) (e : env) (r : bmat -> R) (states : list cstate) (lib_log : dbl -> dbl) (ll prior : cstate -> dbl) (D : drawing) : Prop :=
  0 <= eta /\ 0 <= B /\ accurate lib_log /\ (forall x, In x states -> shows eta B (ll x) (log_lh e x)) /\
  (forall x, In x states -> shows eta B (prior x) (log_prior e r x)) /\ rounded_operators eta B kappa e states D.

(** The transition matrix of the program: an operator is chosen, it proposes, the proposal is accepted or not;
    [L]: [lands] or [lands_positive]. *)
Section Matrix.
Variables (lib_log : dbl -> dbl) (ll prior : cstate -> dbl) (D : drawing).
Variable L : (Z -> option cstate) -> cstate -> R.
Definition move_row (m : move) (x y : cstate) : R :=
  Rsum (map (fun b => snd b * L (next lib_log ll prior x (fst b)) y) (D m x)).
Definition double_matrix (n : nat) (c : frequencies) (x y : cstate) : R :=
  Rsum (mapi (fun i m => probability (fun k => match choose_operator true n c k with Some j => Nat.eqb j i | None => false end) * move_row m x y) cluster_moves).
End Matrix.

(** The error of one step. *)
Definition step_error (n : nat) (eta B kappa : R) : R :=
  3 * INR (5 + n) / 2 ^ 47 + 2 * kappa + 12 * eta + (224 + 48 * (B + eta)) / 2 ^ 53.
