(** Model of [GibbsSampleWeights] (operators.py:326-418): the independent accept/reject step of every feature.

    Simplifications: weights and draws of the relative weight are rational, logarithms are real; floating point values
    are extended reals without rounding (as in [M_mcmc]).  The log-density of the beta distribution of [scipy] is an
    argument.  [update_weights] is the from-scratch value (C03 shows that the cached one equals it). *)
From Coq Require Export Qreals.
From Verif Require Export M_params M_mcmc.
Set Implicit Arguments.
Unset Strict Implicit.
Open Scope R_scope.

(** [np.log] of a non-negative number (weights are never negative, C25). *)
Definition np_log (x : R) : xf := if Rlt_dec 0 x then Fin (ln x) else NInf.
(** operators.py:382-387 -- [np.sum(source[has_both], axis=0)[f, c]] *)
Definition pair_count (has : list (list bool)) (src : cube) (i1 i2 f c : nat) : nat :=
  length (filter (fun o => nth i1 (nth o has []) false && nth i2 (nth o has []) false && nth c (nth f (nth o src []) []) false)
                 (seq 0 (length src))).
(** operators.py:411-418 -- [source_lh_by_feature] at feature [f]; NaN weights give NaN. *)
Definition source_lh_by_feature (src : cube) (weights : list (list (option (list Q)))) (f : nat) : xf :=
  fold_right xadd (Fin 0) (map (fun o =>
    match nth f (nth o weights []) None with
    | None => NaN
    | Some w => np_log (Q2R (Qsum (map2 (fun (b : bool) q => if b then q else 0%Q) (nth f (nth o src []) []) w)))
    end) (seq 0 (length src))).
(** [u < np.exp(x)]; comparisons with NaN are false. *)
Definition below_exp (u : R) (x : xf) : bool :=
  match x with Fin r => if Rlt_dec u (exp r) then true else false | PInf => true | NInf | NaN => if Rlt_dec u 0 then true else false end.

Section Beta.
(** [stats.beta(a, b).logpdf(x)] *)
Variable logpdf : R -> R -> R -> R.
(** operators.py:390 -- the log-density of the proposal at relative weight [a] *)
Definition beta_logpdf (has : list (list bool)) (src : cube) (i1 i2 f : nat) (a : Q) : R :=
  logpdf (1 + INR (pair_count has src i1 i2 f i2)) (1 + INR (pair_count has src i1 i2 f i1)) (Q2R a).
(** operators.py:403 -- [a2_old] *)
Definition relative_weight (i1 i2 : nat) (w : list Q) : Q := (nth i2 w 0 / (nth i1 w 0 + nth i2 w 0))%Q.
(** operators.py:393-401 -- the new weights of all features; NaN rows are empty lists (their normalisation is NaN). *)
Definition new_weights (i1 i2 : nat) (a2 : list Q) (W : list (list Q)) : list (list Q) :=
  map2 (fun a w => match resample_row i1 i2 a w with Some w' => w' | None => [] end) a2 W.
(** operators.py:341-361, 404-405 -- [log_p_new - log_p_old + log_q_back - log_q] at feature [f] *)
Definition log_p_accept (has : list (list bool)) (src : cube) (i1 i2 : nat) (a2 : list Q) (W : list (list Q)) (f : nat) : xf :=
  let log_lh_old := source_lh_by_feature src (normalize_weights W has) f in
  let log_lh_new := source_lh_by_feature src (normalize_weights (new_weights i1 i2 a2 W) has) f in
  let log_q := beta_logpdf has src i1 i2 f (nth f a2 0%Q) in
  let log_q_back := beta_logpdf has src i1 i2 f (relative_weight i1 i2 (nth f W [])) in
  xsub (xadd (xsub log_lh_new log_lh_old) (Fin log_q_back)) (Fin log_q).
(** operators.py:362-363 -- the weights after the step with uniform draws [u] *)
Definition gibbs_sample_weights (has : list (list bool)) (src : cube) (i1 i2 : nat) (a2 : list Q) (u : list R) (W : list (list Q)) : list (list Q) :=
  mapi (fun f w => if below_exp (nth f u 0) (log_p_accept has src i1 i2 a2 W f) then nth f (new_weights i1 i2 a2 W) [] else w) W.
End Beta.
