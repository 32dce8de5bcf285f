(** Model of the sampler loop, [sbayes/sampling/mcmc.py] (26-86, 163-396).

    Floating point numbers are modelled as real numbers extended by the two infinities and NaN (no
    rounding).  Evaluations of the model are functions of the contents of a sample (C03 and C06 show
    that the cached evaluations are); the consistency assertions of mcmc.py:173-175 and 196-198 are
    not repeated here.  [M_tracked] has the loop with caches and assertions; C98 relates the two.  Random
    choices are arguments. *)
From Coq Require Export Reals.
From Verif Require Export Base.
Set Implicit Arguments.
Unset Strict Implicit.
Open Scope R_scope.

(** * Floating point values *)
Inductive xf := Fin (r : R) | PInf | NInf | NaN.

Definition xadd (a b : xf) : xf :=
  match a, b with
  | Fin x, Fin y => Fin (x + y)
  | NaN, _ | _, NaN => NaN
  | PInf, NInf | NInf, PInf => NaN
  | PInf, _ | _, PInf => PInf
  | NInf, _ | _, NInf => NInf
  end.
Definition xopp (a : xf) : xf :=
  match a with Fin x => Fin (- x) | PInf => NInf | NInf => PInf | NaN => NaN end.
Definition xsub (a b : xf) : xf := xadd a (xopp b).
(** Multiplication by a finite factor. *)
Definition xscale (t : R) (a : xf) : xf :=
  match a with
  | Fin x => Fin (t * x)
  | NaN => NaN
  | PInf => if Rlt_dec 0 t then PInf else if Rlt_dec t 0 then NInf else NaN
  | NInf => if Rlt_dec 0 t then NInf else if Rlt_dec t 0 then PInf else NaN
  end.
(** [<]; comparisons with NaN are false. *)
Definition xlt (a b : xf) : bool :=
  match a, b with
  | Fin x, Fin y => if Rlt_dec x y then true else false
  | NaN, _ | _, NaN => false
  | NInf, NInf => false
  | NInf, _ => true
  | _, NInf => false
  | PInf, _ => false
  | _, PInf => true
  end.
(** [== -np.inf]. *)
Definition is_ninf (a : xf) : bool := match a with NInf => true | _ => false end.

(** Exceptions that end a run. *)
Inductive error := MathDomain | ZeroDivision.
Inductive res (A : Type) := Ok (a : A) | Err (e : error).
Arguments Err {A}.
Definition rbind {A B} (r : res A) (f : A -> res B) : res B := match r with Ok a => f a | Err e => Err e end.

(** mcmc.py:366-386 -- [metropolis_hastings_ratio]. *)
Definition metropolis_hastings_ratio (ll_new ll_prev prior_new prior_prev log_q log_q_back : xf) (temperature : R) : xf :=
  let ll_ratio := xsub ll_new ll_prev in
  let log_q_ratio := xsub log_q log_q_back in
  let prior_ratio := xsub prior_new prior_prev in
  xadd (xsub (xscale temperature ll_ratio) log_q_ratio) prior_ratio.

(** [_math.log(_random.random())] for a draw [u] in [0, 1): raises ValueError for [u = 0]. *)
Definition math_log (u : R) : res R := if Rlt_dec 0 u then Ok (ln u) else Err MathDomain.

(** mcmc.py:342-354 -- the accept/reject decision. *)
Definition accept (ll_new ll_prev prior_new prior_prev log_q log_q_back : xf) (u : R) : res bool :=
  if is_ninf log_q_back then Ok false
  else if is_ninf log_q then Ok true
  else rbind (math_log u) (fun l =>
    Ok (xlt (Fin l) (metropolis_hastings_ratio ll_new ll_prev prior_new prior_prev log_q log_q_back 1))).

(** * The loop *)
Section Loop.
(** The contents of a sample. *)
Variable S : Type.
(** mcmc.py:172, 194 -- log-prior and log-likelihood of a chain's model. *)
Variables (eval_ll eval_prior : S -> xf).
Variable sample_from_prior : bool.

(** state.py:383-416 -- the attributes of a sample object used by the loop. *)
Record obj := { content : S; i_step : nat; last_lh : option xf; last_prior : option xf }.

(** The results of [Operator._propose] (operators.py).  Every operator returns in one of these ways:
    - [RReject]: [return sample, Q_REJECT, Q_BACK_REJECT] (782, 786, 829, 886, 890, 1012, 1025, 1064);
    - [RGibbs s]: the sample is changed in place to [s], [return sample, Q_GIBBS, Q_BACK_GIBBS]
      (309, 373, 471, 544);
    - [RCopy s q q_back]: a changed copy is returned (177, 220, 266, 815, 859, 914, 1054, 1102);
    - [RInPlace s q q_back]: changed in place without the Gibbs markers (313, [as_gibbs=False]; no
      operator is configured like this in sbayes_sampling.py:365-461). *)
Inductive result := RReject | RGibbs (s : S) | RCopy (s : S) (q q_back : xf) | RInPlace (s : S) (q q_back : xf).

Definition res_q (r : result) : xf :=
  match r with RReject => Fin 0 | RGibbs _ => NInf | RCopy _ q _ | RInPlace _ q _ => q end.
Definition res_q_back (r : result) : xf :=
  match r with RReject => NInf | RGibbs _ => Fin 0 | RCopy _ _ qb | RInPlace _ _ qb => qb end.
(** Is the candidate the same object as the current sample? *)
Definition res_aliased (r : result) : bool := match r with RCopy _ _ _ => false | _ => true end.
Definition res_content (s : S) (r : result) : S :=
  match r with RReject => s | RGibbs s' | RCopy s' _ _ | RInPlace s' _ _ => s' end.

(** mcmc.py:180-201 -- [likelihood]. *)
Definition lh_of (s : S) : xf := if sample_from_prior then Fin 0 else eval_ll s.

(** One chain: its current sample and the entries of [self._ll], [self._prior]. *)
Record chain := { c_obj : obj; c_ll : xf; c_prior : xf }.

(** All draws of one step of one chain: the operator, what it returns for the current contents, and
    the uniform draw. *)
Record draw := { d_op : nat; d_prop : S -> result; d_u : R }.

(** mcmc.py:321-364 -- [step] of one chain; the boolean tells whether the candidate was accepted. *)
Definition step (ch : chain) (d : draw) : res (chain * bool) :=
  let s := c_obj ch in
  let r := d_prop d (content s) in
  let ll_candidate := lh_of (res_content (content s) r) in
  let prior_candidate := eval_prior (res_content (content s) r) in
  (* evaluation stores the values in the candidate object (177, 190, 200) *)
  let candidate := {| content := res_content (content s) r; i_step := i_step s;
                      last_lh := Some ll_candidate; last_prior := Some prior_candidate |} in
  rbind (accept ll_candidate (c_ll ch) prior_candidate (c_prior ch) (res_q r) (res_q_back r) (d_u d))
    (fun acc : bool =>
      Ok (if acc
          then ({| c_obj := candidate; c_ll := ll_candidate; c_prior := prior_candidate |}, true)
          else ({| c_obj := if res_aliased r then candidate else s; c_ll := c_ll ch; c_prior := c_prior ch |}, false))).

(** mcmc.py:27-43, 72-86 and operators.py:45-46, 83-87 -- the counters: per operator accepts/rejects in
    the statistics and in the operator object. *)
Record stats := { st_ops : list (nat * nat); st_total : nat; op_ops : list (nat * nat) }.
Definition count (acc : bool) (p : nat * nat) : nat * nat := if acc then (Datatypes.S (fst p), snd p) else (fst p, Datatypes.S (snd p)).
(** mcmc.py:356-363. *)
Definition register (op : nat) (acc : bool) (st : stats) : stats :=
  {| st_ops := upd op (count acc) (st_ops st); st_total := if acc then Datatypes.S (st_total st) else st_total st;
     op_ops := upd op (count acc) (op_ops st) |}.

Record sampler := { chains : list chain; statistics : stats }.

(** mcmc.py:283-286 / 254-256 -- all chains make step [i] ([draws c] are the draws of chain [c]) and
    set [i_step]. *)
Definition set_i_step (i : nat) (ch : chain) : chain :=
  {| c_obj := {| content := content (c_obj ch); i_step := i; last_lh := last_lh (c_obj ch); last_prior := last_prior (c_obj ch) |};
     c_ll := c_ll ch; c_prior := c_prior ch |}.
Fixpoint step_chains (i : nat) (draws : nat -> draw) (c : nat) (chs : list chain) (st : stats) : res (list chain * stats) :=
  match chs with
  | [] => Ok ([], st)
  | ch :: rest =>
      rbind (step ch (draws c)) (fun '(ch', acc) =>
      rbind (step_chains i draws (Datatypes.S c) rest (register (d_op (draws c)) acc st)) (fun '(rest', st') =>
      Ok (set_i_step i ch' :: rest', st')))
  end.
Definition step_all (i : nat) (draws : nat -> draw) (sm : sampler) : res sampler :=
  rbind (step_chains i draws 0 (chains sm) (statistics sm)) (fun '(chs, st) => Ok {| chains := chs; statistics := st |}).

(** mcmc.py:235-241 -- initial samples (generated elsewhere) and their evaluation. *)
Definition init_chain (s : S) : chain :=
  {| c_obj := {| content := s; i_step := 0; last_lh := Some (lh_of s); last_prior := Some (eval_prior s) |};
     c_ll := lh_of s; c_prior := eval_prior s |}.
Definition init_sampler (n_ops : nat) (ss : list S) : sampler :=
  {| chains := map init_chain ss;
     statistics := {| st_ops := repeat (0%nat, 0%nat) n_ops; st_total := 0; op_ops := repeat (0%nat, 0%nat) n_ops |} |}.

(** mcmc.py:277 -- [int(_np.ceil(n_steps / n_samples))] (exact division). *)
Definition steps_per_sample (n_steps n_samples : nat) : nat := (n_steps + n_samples - 1) / n_samples.

(** mcmc.py:280-301 -- the sampling loop: the remaining [todo] steps starting with step [i].  [log] are
    the samples passed to the loggers with their [sample_id], [last] is [statistics.last_sample]. *)
Fixpoint loop (n_steps n_samples : nat) (draws : nat -> nat -> draw) (todo i : nat) (sm : sampler)
    (log : list (nat * obj)) (last : option obj) : res (sampler * list (nat * obj) * option obj) :=
  match todo with
  | 0%nat => Ok (sm, log, last)
  | Datatypes.S todo' =>
      rbind (step_all i (draws i) sm) (fun sm' =>
      let first := option_map c_obj (nth_error (chains sm') 0) in
      let sps := steps_per_sample n_steps n_samples in
      let log' := if (i mod sps =? 0)%nat
                  then match first with Some o => log ++ [((i / sps)%nat, o)] | None => log end else log in
      if (n_steps - 1 =? 0)%nat then Err ZeroDivision else
      let last' := if ((i mod (n_steps - 1) =? 0) && negb (i =? 0))%nat then first else last in
      loop n_steps n_samples draws todo' (Datatypes.S i) sm' log' last')
  end.
(** mcmc.py:222-309 with [warm_up=False] (the loop; timing and closing of the files omitted). *)
Definition generate_samples (n_ops : nat) (ss : list S) (n_steps n_samples : nat) (draws : nat -> nat -> draw) :=
  loop n_steps n_samples draws n_steps 0 (init_sampler n_ops ss) [] None.

(** mcmc.py:83-86 -- [acceptance_rate] (as numerator and denominator; [n_samples] is set at 305). *)
Definition acceptance_rate (st : stats) (n_samples : nat) : option (nat * nat) :=
  if (n_samples =? 0)%nat then None else Some (st_total st, n_samples).

(** [max(l)]: keeps the first of equal values; NaN never compares greater. *)
Fixpoint xmax (best : xf) (l : list xf) : xf :=
  match l with [] => best | x :: r => xmax (if xlt best x then x else best) r end.
Definition xeqb (a b : xf) : bool :=
  match a, b with
  | Fin x, Fin y => if Req_EM_T x y then true else false
  | PInf, PInf | NInf, NInf => true
  | _, _ => false
  end.
(** [l.index(v)] (for values other than NaN). *)
Fixpoint index_of (v : xf) (l : list xf) : option nat :=
  match l with [] => None | x :: r => if xeqb x v then Some 0%nat else option_map Datatypes.S (index_of v r) end.

(** mcmc.py:248-257 -- the warm-up loop. *)
Fixpoint warm_loop (draws : nat -> nat -> draw) (todo i : nat) (sm : sampler) : res sampler :=
  match todo with
  | 0%nat => Ok sm
  | Datatypes.S todo' => rbind (step_all i (draws i) sm) (fun sm' => warm_loop draws todo' (Datatypes.S i) sm')
  end.
(** mcmc.py:259-265 -- the best chain. *)
Definition posterior (ch : chain) : xf := xadd (c_ll ch) (c_prior ch).
Definition best_sample (chs : list chain) : option obj :=
  match map posterior chs with
  | [] => None
  | x :: r => match index_of (xmax x r) (x :: r) with
              | Some i => option_map c_obj (nth_error chs i)
              | None => None
              end
  end.
Definition warm_up (n_ops : nat) (ss : list S) (warm_up_steps : nat) (draws : nat -> nat -> draw) : res (option obj * sampler) :=
  rbind (warm_loop draws warm_up_steps 0 (init_sampler n_ops ss)) (fun sm => Ok (best_sample (chains sm), sm)).
End Loop.
