(** Model of the operator statistics file: [OperatorStatsLogger] (sbayes/sampling/loggers.py:283-331) and
    its use in the sampling loop (sbayes/sampling/mcmc.py:159-161, 280-309). *)
From Coq Require Export QArith Qround Qabs.
From Verif Require Export M_mcmc M_loggers.
Set Implicit Arguments.
Unset Strict Implicit.
Close Scope R_scope.
Close Scope Q_scope.
Open Scope nat_scope.

Definition space : ascii := " ".
(** [str.ljust(s, w)] *)
Definition ljust (s : str) (w : nat) : str := s ++ repeat space (w - length s).
(** loggers.py:288 -- [COL_WIDTHS]. *)
Definition col_widths : list nat := [20; 8; 8; 8; 10].
Definition width (i : nat) : nat := nth i col_widths 0.

(** Rounding to the nearest integer, ties to even. *)
Definition round_half_even (q : Q) : Z :=
  let f := Qfloor q in
  match (q - inject_Z f ?= 1 # 2)%Q with
  | Lt => f
  | Gt => (f + 1)%Z
  | Eq => if Z.even f then f else (f + 1)%Z
  end.
(** ['%.2f%%' % q] for a non-negative exact number [q]; the rounding errors of the floating point
    computation of the rate are not modelled. *)
Definition fmt_percent (q : Q) : str :=
  let n := Z.to_nat (round_half_even (q * 100)) in
  str_nat (n / 100) ++ s_ "." ++ str_nat (n mod 100 / 10) ++ str_nat (n mod 10) ++ s_ "%".

(** An operator as seen by the logger: class name, accepts, rejects (operators.py:45-46, 83-100). *)
Record operator := { op_name : str; op_accepts : nat; op_rejects : nat }.
(** operators.py:90-91 *)
Definition op_total (o : operator) : nat := op_accepts o + op_rejects o.
(** operators.py:94-95 -- only called with a positive total. *)
Definition op_rate (o : operator) : Q := (inject_Z (Z.of_nat (op_accepts o)) / inject_Z (Z.of_nat (op_total o)))%Q.

(** loggers.py:303-311 *)
Definition get_log_message_header : str :=
  join [tab] [ljust (s_ "OPERATOR") (width 0); ljust (s_ "ACCEPTS") (width 1); ljust (s_ "REJECTS") (width 2);
              ljust (s_ "TOTAL") (width 3); s_ "ACC. RATE"].
(** loggers.py:313-325 *)
Definition get_log_message_row (o : operator) : str :=
  if op_total o =? 0 then
    join [tab] (mapi (fun i x => ljust x (width i)) [op_name o; s_ "-"; s_ "-"; s_ "-"; s_ "-"])
  else
    join [tab] [ljust (op_name o) (width 0); ljust (str_nat (op_accepts o)) (width 1);
                ljust (str_nat (op_rejects o)) (width 2); ljust (str_nat (op_total o)) (width 3);
                fmt_percent (100 * op_rate o)].
(** loggers.py:298-301 *)
Definition write_to (ops : list operator) : str :=
  get_log_message_header ++ [newline] ++ concat (map (fun o => get_log_message_row o ++ [newline]) ops).
(** loggers.py:294-296 -- mode "w" truncates the old content; leaving the [with] block flushes the file. *)
Definition write_stats (ops : list operator) (disk : option str) : option str := Some (write_to ops).

(** mcmc.py:159-161 -- the operators of the sampler, with the counters [counts]. *)
Definition operators_of (names : list str) (counts : list (nat * nat)) : list operator :=
  map2 (fun n '(a, r) => {| op_name := n; op_accepts := a; op_rejects := r |}) names counts.

Section Loop.
Variable S : Type.
Variables (eval_ll eval_prior : S -> xf).
Variable sample_from_prior : bool.
(** The class names of the operators of the sampler, in order. *)
Variable names : list str.
(** mcmc.py:280-301 -- the sampling loop as in [M_mcmc.loop], with the statistics file [disk] instead of the
    list of logged samples. *)
Fixpoint stats_loop (n_steps n_samples : nat) (draws : nat -> nat -> draw S) (todo i : nat) (sm : sampler S)
    (disk : option str) : res (sampler S * option str) :=
  match todo with
  | 0 => Ok (sm, disk)
  | Datatypes.S todo' =>
      rbind (step_all eval_ll eval_prior sample_from_prior i (draws i) sm) (fun sm' =>
      let disk' := if i mod steps_per_sample n_steps n_samples =? 0
                   then write_stats (operators_of names (op_ops (statistics sm'))) disk else disk in
      if n_steps - 1 =? 0 then Err ZeroDivision else
      stats_loop n_steps n_samples draws todo' (Datatypes.S i) sm' disk')
  end.
(** mcmc.py:222-309 *)
Definition stats_run (ss : list S) (n_steps n_samples : nat) (draws : nat -> nat -> draw S) (disk : option str) :=
  stats_loop n_steps n_samples draws n_steps 0 (init_sampler eval_ll eval_prior sample_from_prior (length names) ss) disk.
End Loop.

(** sbayes_sampling.py:365-461 and operators.py:98-100 -- the class names of the operators, in the order of
    the dictionary (confounder names are distinct, so no entry is overwritten). *)
Definition operator_classes (sample_source : bool) (confounders : list str) : list str :=
  if sample_source then
    [s_ "AlterClusterGibbsish"; s_ "AlterClusterGibbsish2"; s_ "GibbsSampleSource"; s_ "GibbsSampleWeights";
     s_ "GibbsSampleClusterEffect"] ++ map (fun _ => s_ "GibbsSampleConfoundingEffects") confounders
  else
    [s_ "AlterCluster"; s_ "AlterWeights"; s_ "AlterClusterEffect"] ++
    map (fun _ => s_ "AlterConfoundingEffects") confounders.
