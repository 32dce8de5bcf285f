(** Model of the likelihood log: [LikelihoodLogger] (sbayes/sampling/loggers.py:253-280), the attribute
    [observation_lhs] of samples (sbayes/sampling/state.py:416-417, sbayes/model/likelihood.py:62-65) and
    their use in the sampling loop (sbayes/sampling/mcmc.py:180-201, 280-309, 321-364).

    The array in the h5 file is a list of rows; numbers are stored exactly (the file uses 32 bit floats).
    The content of a sample is of an arbitrary type and the likelihoods of its observations are a function
    of it (C03). *)
From Coq Require Export QArith Qreals.
From Verif Require Export M_mcmc M_model.
Set Implicit Arguments.
Unset Strict Implicit.
Close Scope R_scope.
Close Scope Q_scope.
Open Scope nat_scope.

(** [np.log] of one observation likelihood; [None] is NaN. *)
Definition np_log (x : option Q) : xf :=
  match x with
  | None => NaN
  | Some q => if Qlt_le_dec 0 q then Fin (ln (Q2R q)) else if Qeq_bool q 0 then NInf else NaN
  end.
(** likelihood.py:65 -- [np.sum(np.log(observation_lhs))]. *)
Definition log_sum (row : list (option Q)) : xf := fold_right (fun x a => xadd (np_log x) a) (Fin 0) row.

(** The logger: not yet open, open with an array of rows of a fixed width, or ended by an exception. *)
Inductive lh_file := LhClosed | LhOpen (width : nat) (rows : list (list (option Q))) | LhError.

Section LhLog.
Variable S : Type.
(** likelihood.py:63 -- the likelihoods of the observations of a sample. *)
Variable eval_obs : S -> list (option Q).
Variable eval_prior : S -> xf.
Variable sample_from_prior : bool.
(** state.py -- [sample.n_objects * sample.n_features]. *)
Variable n_cells : S -> nat.
(** likelihood.py:46-67 -- the log-likelihood. *)
Definition eval_ll (s : S) : xf := log_sum (eval_obs s).
Let step := step eval_ll eval_prior sample_from_prior.
Let step_all := step_all eval_ll eval_prior sample_from_prior.

(** mcmc.py:192-194, likelihood.py:64 -- the attribute [observation_lhs] of the candidate after its
    evaluation; it is [None] in a new copy (state.py:417) and not set if only the prior is sampled. *)
Definition candidate_obs (s : S) (r : result S) (obs : option (list (option Q))) : option (list (option Q)) :=
  if sample_from_prior then (if res_aliased r then obs else None) else Some (eval_obs (res_content s r)).
(** mcmc.py:321-364 -- the attribute [observation_lhs] of the sample of a chain after a step. *)
Definition obs_step (ch : chain S) (d : draw S) (obs : option (list (option Q))) : option (list (option Q)) :=
  let r := d_prop d (content (c_obj ch)) in
  let cand := candidate_obs (content (c_obj ch)) r obs in
  match step ch d with
  | Ok (_, true) => cand
  | Ok (_, false) => if res_aliased r then cand else obs
  | Err _ => obs
  end.
(** mcmc.py:241-242 *)
Definition obs_init (s : S) : option (list (option Q)) := if sample_from_prior then None else Some (eval_obs s).

(** loggers.py:39-43, 266-280 -- the first sample opens the file and creates the array; [None[None, ...]] is
    a TypeError and a row of a different length a ValueError. *)
Definition lh_write (s : S) (obs : option (list (option Q))) (f : lh_file) : lh_file :=
  match (match f with LhClosed => LhOpen (n_cells s) [] | _ => f end), obs with
  | LhOpen w rows, Some row => if length row =? w then LhOpen w (rows ++ [row]) else LhError
  | _, _ => LhError
  end.

(** mcmc.py:280-301 -- the sampling loop as in [M_mcmc.loop], with the likelihood file instead of the list of
    logged samples (an exception of the logger ends the run; here the loop goes on with [LhError]). *)
Fixpoint lh_loop (n_steps n_samples : nat) (draws : nat -> nat -> draw S) (todo i : nat) (sm : sampler S)
    (obs : list (option (list (option Q)))) (f : lh_file) : res lh_file :=
  match todo with
  | 0 => Ok f
  | Datatypes.S todo' =>
      rbind (step_all i (draws i) sm) (fun sm' =>
      let obs' := mapi (fun c '(ch, ob) => obs_step ch (draws i c) ob) (combine (chains sm) obs) in
      let f' := if i mod steps_per_sample n_steps n_samples =? 0
                then match chains sm', obs' with
                     | ch :: _, ob :: _ => lh_write (content (c_obj ch)) ob f
                     | _, _ => f
                     end
                else f in
      if n_steps - 1 =? 0 then Err ZeroDivision else
      lh_loop n_steps n_samples draws todo' (Datatypes.S i) sm' obs' f')
  end.
(** mcmc.py:222-309 *)
Definition lh_run (n_ops : nat) (ss : list S) (n_steps n_samples : nat) (draws : nat -> nat -> draw S) : res lh_file :=
  lh_loop n_steps n_samples draws n_steps 0 (init_sampler eval_ll eval_prior sample_from_prior n_ops ss) (map obs_init ss) LhClosed.
End LhLog.
