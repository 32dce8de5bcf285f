(** Specification for C15-C21: the sampler loop and the accept/reject step. *)
From Verif Require Export M_mcmc.
Set Implicit Arguments.
Unset Strict Implicit.
Open Scope R_scope.

(** The order on extended reals without NaN. *)
Definition xle (a b : xf) : Prop :=
  match a, b with
  | NaN, _ | _, NaN => False
  | NInf, _ | _, PInf => True
  | Fin x, Fin y => x <= y
  | _, _ => False
  end.
(** A log-density: no NaN and not +inf. *)
Definition log_density (a : xf) : Prop := match a with Fin _ | NInf => True | _ => False end.
(** The density itself. *)
Definition dens (a : xf) : R := match a with Fin x => exp x | _ => 0 end.

Section Loop.
Variable S : Type.
Variables (eval_ll eval_prior : S -> xf).
Variable sample_from_prior : bool.
Let lh_of := lh_of eval_ll sample_from_prior.

(** All operators return as configured: never in place without the Gibbs markers. *)
Definition configured (draws : nat -> nat -> draw S) : Prop :=
  forall i c s, match d_prop (draws i c) s with RInPlace _ _ _ => False | _ => True end.
(** Uniform draws are never exactly zero (probability 2^-53 each). *)
Definition positive_draws (draws : nat -> nat -> draw S) : Prop := forall i c, 0 < d_u (draws i c) < 1.
(** Operators are chosen among the [n] existing ones. *)
Definition ops_below (n : nat) (draws : nat -> nat -> draw S) : Prop := forall i c, (d_op (draws i c) < n)%nat.

(** The remembered and the logged values are those of the current sample. *)
Definition recorded (ch : chain S) : Prop :=
  c_ll ch = lh_of (content (c_obj ch)) /\ c_prior ch = eval_prior (content (c_obj ch)) /\
  last_lh (c_obj ch) = Some (lh_of (content (c_obj ch))) /\ last_prior (c_obj ch) = Some (eval_prior (content (c_obj ch))).

(** The sampler after [n] steps. *)
Fixpoint after (draws : nat -> nat -> draw S) (sm : sampler S) (n : nat) : res (sampler S) :=
  match n with
  | 0%nat => Ok sm
  | Datatypes.S i => rbind (after draws sm i) (step_all eval_ll eval_prior sample_from_prior i (draws i))
  end.
(** Does chain [c] accept its candidate in step [i]? *)
Definition accepts (draws : nat -> nat -> draw S) (sm : sampler S) (i c : nat) : bool :=
  match after draws sm i with
  | Ok sm' => match nth_error (chains sm') c with
              | Some ch => match step eval_ll eval_prior sample_from_prior ch (draws i c) with Ok (_, b) => b | Err _ => false end
              | None => false
              end
  | Err _ => false
  end.
(** How often is operator [k] chosen in the first [n] steps of [m] chains and its candidate accepted ([b])
    or rejected? *)
Definition tally (draws : nat -> nat -> draw S) (sm : sampler S) (n m k : nat) (b : bool) : nat :=
  list_sum (map (fun i => list_sum (map (fun c =>
    if (Nat.eqb (d_op (draws i c)) k && Bool.eqb (accepts draws sm i c) b)%bool then 1%nat else 0%nat) (seq 0 m))) (seq 0 n)).
(** The sample of the first chain after [n] steps. *)
Definition cold_sample (draws : nat -> nat -> draw S) (sm : sampler S) (n : nat) : option (obj S) :=
  match after draws sm n with Ok sm' => option_map (@c_obj S) (nth_error (chains sm') 0) | Err _ => None end.
End Loop.

Definition sum_fst (l : list (nat * nat)) : nat := list_sum (map fst l).
Definition sum_snd (l : list (nat * nat)) : nat := list_sum (map snd l).

(** config.py:303-331 -- the validated number of steps and samples. *)
Definition valid_spacing (steps samples : nat) : Prop := (0 < steps)%nat /\ (0 < samples)%nat /\ (steps mod samples = 0)%nat.

(** * Transition probabilities (C15) *)
(** Probability of acceptance over a uniform draw at temperature [t] (see [C15_acceptance_probability]). *)
Definition acc_prob (t : R) (ll_new ll_prev prior_new prior_prev q qb : xf) : R :=
  if is_ninf qb then 0 else if is_ninf q then 1 else
  match metropolis_hastings_ratio ll_new ll_prev prior_new prior_prev q qb t with
  | Fin r => Rmin 1 (exp r)
  | PInf => 1
  | _ => 0
  end.
Definition Rsum (l : list R) : R := fold_right Rplus 0 l.
(** [np.log] of a non-negative number. *)
Definition xln (x : R) : xf := if Rlt_dec 0 x then Fin (ln x) else NInf.

Section Kernel.
Variable T : Type.
Variable dec : forall x y : T, {x = y} + {x <> y}.
Variables (t : R) (ll prior : T -> xf).
(** The proposals of a state with their probabilities; [None] is a direct rejection. *)
Variable props : T -> list (option (T * xf * xf) * R).

Definition proposes (y : T) (out : option (T * xf * xf)) (v : xf -> xf -> R) : R :=
  match out with Some (y', q, qb) => if dec y' y then v q qb else 0 | None => 0 end.
(** The probability of proposing [y] from [x], and of moving to it. *)
Definition mass_r (x y : T) : R := Rsum (map (fun '(out, p) => p * proposes y out (fun _ _ => 1)) (props x)).
Definition kernel (x y : T) : R :=
  Rsum (map (fun '(out, p) => p * proposes y out (fun q qb => acc_prob t (ll y) (ll x) (prior y) (prior x) q qb)) (props x)).
(** The unnormalized posterior, with the likelihood tempered by [t] (1 in the sampler). *)
Definition target_density (x : T) : R := dens (xscale t (ll x)) * dens (prior x).

(** All proposals of [y] from [x] report the probabilities of the move and of its reverse, up to a
    common factor [c]. *)
Definition exact_reports (c : R) (x y : T) : Prop :=
  forall q qb p, In (Some (y, q, qb), p) (props x) -> 0 < p ->
    q = xln (c * mass_r x y) /\ qb = xln (c * mass_r y x).
(** All proposals of [y] from [x] report NaN (and are not marked as Gibbs proposals). *)
Definition nan_reports (x y : T) : Prop :=
  forall q qb p, In (Some (y, q, qb), p) (props x) -> 0 < p -> q = NaN \/ qb = NaN /\ q <> NInf.
Definition honest (c : R) (x y : T) : Prop :=
  exact_reports c x y /\ exact_reports c y x \/ nan_reports x y /\ nan_reports y x.

(** The transition matrix on the finite set of states [states]: what is not moved elsewhere stays. *)
Definition matrix (states : list T) (x y : T) : R :=
  if dec x y then 1 - Rsum (map (fun z => if dec x z then 0 else kernel x z) states) else kernel x y.
End Kernel.
