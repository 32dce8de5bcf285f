(** Model of small numerical helpers of sbayes/util.py and of the geo-prior functions of
    sbayes/model/prior.py.  Floats are exact rationals (reals where logarithms occur). *)
From Coq Require Export String DecimalString Reals QArith.
From Verif Require Export Base M_model.
Set Implicit Arguments.
Unset Strict Implicit.
Close Scope string_scope.
Close Scope R_scope.

(** * Scaling of counts *)
(** util.py:27 -- [EPS = np.finfo(float).eps], which is 2^-52. *)
Definition EPS : Q := (1 # 4503599627370496)%Q.
(** util.py:488-494 -- [scale_counts] for one vector along the last axis (the operation is applied
    independently to each). *)
Definition scale_counts_row (scale_to : Q) (counts : list Q) : list Q :=
  (let s := Qsum counts in
   let s := if Qeq_bool s 0 then EPS else s in
   let factor := scale_to / s in
   let factor := if negb (Qle_bool 1 factor) then factor else 1 in
   map (fun c => c * factor) counts)%Q.
Definition scale_counts (counts : list (list Q)) (scale_to : Q) : list (list Q) := map (scale_counts_row scale_to) counts.

(** * Rescaling and rounding *)
(** util.py:810-822 *)
Definition linear_rescale (value old_min old_max new_min new_max : Q) : Q :=
  ((new_max - new_min) / (old_max - old_min) * (value - old_max) + old_max)%Q.

(** [str(n)] of a Python integer. *)
Definition str_of_Z (n : Z) : string := NilZero.string_of_int (Z.to_int n).
Definition len_str (n : Z) : Z := Z.of_nat (String.length (str_of_Z n)).

(** The [mode] arguments: the strings 'up', 'down' and anything else. *)
Inductive rmode := Up | Down | OtherMode.

(** util.py:853-883 -- [round_single_int] on integers; [None] is an exception. *)
Definition round_single_int (n : Z) (mode : rmode) (position offset : Z) : option Z :=
  let n_digits := if (0 <? n)%Z then len_str n else (len_str n - 1)%Z in
  match mode with
  | OtherMode => None
  | _ =>
    if (n_digits <? position)%Z then None else
    let plain := match mode with Down => (n - offset)%Z | _ => (n + offset)%Z end in
    let at_factor factor := let base := (n / factor * factor)%Z in
      match mode with Down => (base - offset * factor)%Z | _ => (base + (offset + 1) * factor)%Z end in
    if (n_digits =? 1)%Z then Some plain
    else if (n_digits =? 2)%Z then
      (if (position =? 1)%Z then Some (at_factor 10%Z)
       else if (position =? 2)%Z then Some plain else None)
    else if negb (position =? n_digits)%Z then Some (at_factor (10 ^ (n_digits - position))%Z)
    else Some plain
  end.

(** All elements defined. *)
Fixpoint all_some {A} (l : list (option A)) : option (list A) :=
  match l with
  | [] => Some []
  | x :: r => match x, all_some r with Some a, Some b => Some (a :: b) | _, _ => None end
  end.
(** util.py:886-906 -- [round_multiple_ints] on integers.  The minimum of no numbers raises. *)
Definition Zmin_list (l : list Z) : option Z :=
  match l with [] => None | x :: r => Some (fold_left Z.min r x) end.
Definition round_multiple_ints (ups downs : list Z) (position offset : Z) : option (list Z * list Z) :=
  match Zmin_list (ups ++ downs) with
  | None => None
  | Some m =>
      let fewest := len_str m in
      let rnd mode n := round_single_int n mode (position + len_str n - fewest)%Z offset in
      match all_some (map (rnd Up) ups), all_some (map (rnd Down) downs) with
      | Some u, Some d => Some (u, d)
      | _, _ => None
      end
  end.

(** util.py:922-943 -- [round_int] on integers.  The second [if] of the first branch has no [elif], so mode
    'up' falls into the [else] and raises.  The recursive call for negative numbers is on [abs n >= 0] and
    recursion stops there; [fuel] 2 is enough (see [round_int_fuel] in L_util). *)
Fixpoint round_int_fuel (fuel : nat) (n : Z) (mode : rmode) (offset : Z) : option Z :=
  match fuel with
  | O => None
  | S fuel =>
    let convertor := (10 ^ (len_str offset - 1))%Z in
    if (offset <? n)%Z then
      match mode with
      | Down => Some (n / convertor * convertor - offset)%Z
      | _ => None
      end
    else if (0 <=? n)%Z then
      Some (match mode with Up => (offset + convertor)%Z | _ => (- offset)%Z end)
    else
      let inverse := match mode with Down => Up | _ => Down end in
      option_map Z.opp (round_int_fuel fuel (Z.abs n) inverse offset)
  end.
Definition round_int (n : Z) (mode : rmode) (offset : Z) : option Z := round_int_fuel 2 n mode offset.

(** * The schedule of maximal sizes *)
(** util.py:1092-1096 -- [get_max_size_list]; [np.linspace(..., endpoint=False, dtype=int)] rounds the exact
    values down.  Zero groups is a ZeroDivisionError. *)
Definition get_max_size_list (start end_ : Z) (n_total k_groups : nat) : option (list Z) :=
  match k_groups with
  | O => None
  | _ =>
    let n_per_group := ((n_total + k_groups - 1) / k_groups)%nat in
    let max_sizes := map (fun i => (start + Z.of_nat i * (end_ - start) / Z.of_nat k_groups)%Z) (seq 0 k_groups) in
    Some (firstn n_total (flat_map (fun s => repeat s n_per_group) max_sizes))
  end.
(** sbayes_sampling.py:478-483 -- the sizes of the warm-up chains. *)
Definition warmup_sizes (initial_size max_size : Z) (n_chains : nat) : option (list Z) :=
  get_max_size_list ((initial_size + max_size) / 2) (3 * max_size / 2) n_chains 4.

(** mcmc.py:133, sbayes_sampling.py:474-483 -- the parts of a warm-up sampler that concern sizes: every
    chain has a copy of the model, with the maximal size of the model; then the attribute [max_size] of
    the sampler is overwritten by the schedule. *)
Record warmup_sampler := { ws_models : list Z; ws_max_size : list Z }.
Definition warmup_init (initial_size max_size : Z) (n_chains : nat) : option warmup_sampler :=
  option_map (fun sizes => {| ws_models := repeat max_size n_chains; ws_max_size := sizes |})
             (warmup_sizes initial_size max_size n_chains).
(** operators.py:785, 882, 1011 -- the limit that the cluster operators apply in a chain:
    [self.model_by_chain[sample.chain].max_size]. *)
Definition operator_limit (w : warmup_sampler) (chain : nat) : option Z := nth_error (ws_models w) chain.

(** * Functions of the geo-prior *)
Section Geo.
Open Scope R_scope.
(** util.py:1233-1237 -- [log_expit] *)
Definition log_expit (x : R) : R := - ln (1 + exp (- x)).
(** prior.py:481-483 *)
Definition geo_exponential (scale x : R) : R := - x / scale.
(** prior.py:485-488 *)
Definition geo_sigmoid (scale x0 x : R) : R := log_expit (- (x - x0) / scale) - log_expit (x0 / scale).
End Geo.
