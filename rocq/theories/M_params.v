(** Model of the operators on weights and effects ([sbayes/sampling/operators.py], 106-550) and of
    [sample_categorical] ([sbayes/preprocessing.py]).

    Simplifications: exact rationals; the random numbers ([np.random], [random], [scipy.stats]) are
    arguments; NaN/Inf vectors are [None].  Chains, caches and copies are the subject of [M_state] and
    [M_cache]. *)
From Verif Require Export M_operators.
Set Implicit Arguments.
Unset Strict Implicit.
Open Scope Q_scope.

(** * Categorical sampling *)
(** [np.cumsum] of one vector. *)
Fixpoint cumsum_from (acc : Q) (p : list Q) : list Q :=
  match p with [] => [] | q :: r => (acc + q) :: cumsum_from (acc + q) r end.
Definition cumsum (p : list Q) : list Q := cumsum_from 0 p.
(** [np.argmax] of a boolean vector: the first position that is set, and 0 if none is. *)
Fixpoint first_true (l : list bool) : option nat :=
  match l with [] => None | true :: _ => Some 0%nat | false :: r => option_map S (first_true r) end.
Definition argmax (l : list bool) : nat := match first_true l with Some i => i | None => 0%nat end.
Definition Qltb (a b : Q) : bool := negb (Qle_bool b a).
(** preprocessing.py:231-234 -- the category drawn for one cell; comparisons with NaN are false. *)
Definition categorical (z : Q) (p : option (list Q)) : nat :=
  match p with None => 0%nat | Some l => argmax (map (Qltb z) (cumsum l)) end.
(** preprocessing.py:235-239 -- [np.eye(n)[samples]]. *)
Definition eye_row (n c : nat) : list bool := map (Nat.eqb c) (seq 0 n).
(** preprocessing.py:213-241 -- [sample_categorical(p, binary_encoding=True)] of a two-dimensional array
    of probability vectors with [n] categories; [z] holds the uniform draws. *)
Definition sample_categorical (n : nat) (z : list (list Q)) (p : list (list (option (list Q)))) : cube :=
  map2 (map2 (fun z_of p_of => eye_row n (categorical z_of p_of))) z p.

(** * Dirichlet random walk on two entries of a probability vector *)
(** [v[[i, j]] = [a, b]]. *)
Definition set2 (i j : nat) (a b : Q) (v : list Q) : list Q := upd j (fun _ => b) (upd i (fun _ => a) v).

Section Density.
Variable D : Type.
(** [dirichlet_logpdf(x, alpha)] (util.py:31, a function of scipy). *)
Variable logpdf : list Q -> list Q -> D.

(** operators.py:122, 127 -- [1 + step_precision * w]. *)
Definition step_alpha (prec : Q) (w : list Q) : list Q := map (fun x => 1 + prec * x) w.
(** operators.py:106-137 -- [dirichlet_proposal]; [draw] is the result of [np.random.dirichlet], [None] if
    it is not finite (the function then returns the direct rejection). *)
Definition dirichlet_proposal (prec : Q) (w : list Q) (draw : option (list Q)) : option (list Q * D * D) :=
  match draw with
  | None => None
  | Some w_new => Some (w_new, logpdf w_new (step_alpha prec w), logpdf w (step_alpha prec w_new))
  end.
(** operators.py:158-177, 203-220, 249-266 -- the change of the entries [i] and [j] of one row, common to
    [AlterWeights], [AlterClusterEffect] and [AlterConfoundingEffects].  If both entries are zero, the
    division gives NaN, so do the parameters and the draw, and the proposal is rejected. *)
Definition alter_pair (prec : Q) (row : list Q) (i j : nat) (draw : option (list Q)) : option (list Q * D * D) :=
  let a := nth i row 0 in
  let b := nth j row 0 in
  let s := Qsum [a; b] in
  if Qeq_bool s 0 then None else
  match dirichlet_proposal prec [a / s; b / s] draw with
  | None => None
  | Some (w_new, log_q, log_q_back) => Some (set2 i j (nth 0 w_new 0 * s) (nth 1 w_new 0 * s) row, log_q, log_q_back)
  end.
End Density.

(** operators.py:142, 182, 225 -- [STEP_PRECISION] of the three classes. *)
Definition prec_weights : Q := 30.
Definition prec_cluster : Q := 20.
Definition prec_conf : Q := 10.

(** * Weights, cluster effects and confounding effects *)
Record params := { p_weights : list (list Q); p_ce : list effect; p_cf : list (list effect) }.

(** operators.py:395-400 -- new weights of one feature in [resample_weight_for_two_components]. *)
Definition resample_row (i j : nat) (a2 : Q) (w : list Q) : option (list Q) :=
  let w_02 := nth i w 0 + nth j w 0 in
  normalize (set2 i j ((1 - a2) * w_02) (a2 * w_02) w).
(** operators.py:363 -- [np.where(accept, w_new, w)] for one feature; the new weights are NaN only if the
    old ones sum to zero, and then the comparison in 362 is false. *)
Definition gibbs_weights_row (i j : nat) (draw : Q * bool) (w : list Q) : list Q :=
  match resample_row i j (fst draw) w with
  | Some w_new => if snd draw then w_new else w
  | None => w
  end.

(** operators.py:464-470, 536-542 -- [effect[i_feat, s_idxs] = draw] for one feature. *)
Fixpoint scatter_q (app : list bool) (row draw : list Q) : list Q :=
  match app, row with
  | true :: app', _ :: row' => match draw with d :: draw' => d :: scatter_q app' row' draw' | [] => 0 :: scatter_q app' row' [] end
  | false :: app', x :: row' => x :: scatter_q app' row' draw
  | _, _ => []
  end.
(** operators.py:463-470, 535-542 -- all features of one group. *)
Fixpoint gibbs_effect (applicable : list (list bool)) (p : effect) (draws : list (list Q)) : effect :=
  match applicable, p, draws with
  | app :: applicable', row :: p', d :: draws' => scatter_q app row d :: gibbs_effect applicable' p' draws'
  | _, p, _ => p
  end.

(** The operators with their random choices. [which = None] are the cluster effects, [Some k] the effects
    of confounder [k]; [g] is the group, [f] the feature, [i, j] the two entries. *)
Inductive pop :=
| AlterWeights (f i j : nat) (draw : option (list Q))
| GibbsWeights (i j : nat) (draws : list (Q * bool))
| AlterEffect (which : option nat) (g f i j : nat) (draw : option (list Q))
| GibbsEffect (which : option nat) (g : nat) (draws : list (list Q)).

(** Change the effect of group [g] ([edit_group], state.py:114-123). *)
Definition edit_effect (which : option nat) (g : nat) (h : effect -> effect) (p : params) : params :=
  match which with
  | None => {| p_weights := p_weights p; p_ce := upd g h (p_ce p); p_cf := p_cf p |}
  | Some k => {| p_weights := p_weights p; p_ce := p_ce p; p_cf := upd k (upd g h) (p_cf p) |}
  end.
Definition get_effect (which : option nat) (g : nat) (p : params) : effect :=
  match which with None => nth g (p_ce p) [] | Some k => nth g (nth k (p_cf p) []) [] end.
Definition prec_effect (which : option nat) : Q := match which with None => prec_cluster | Some _ => prec_conf end.

(** operators.py:140-550 -- the parameters proposed by an operator, [None] for a direct rejection. *)
Definition propose_params (applicable : list (list bool)) (op : pop) (p : params) : option params :=
  match op with
  | AlterWeights f i j draw =>
      option_map (fun '(row, _, _) => {| p_weights := upd f (fun _ => row) (p_weights p); p_ce := p_ce p; p_cf := p_cf p |})
        (alter_pair (fun _ _ => tt) prec_weights (nth f (p_weights p) []) i j draw)
  | GibbsWeights i j draws =>
      Some {| p_weights := map2 (gibbs_weights_row i j) draws (p_weights p); p_ce := p_ce p; p_cf := p_cf p |}
  | AlterEffect which g f i j draw =>
      option_map (fun '(row, _, _) => edit_effect which g (upd f (fun _ => row)) p)
        (alter_pair (fun _ _ => tt) (prec_effect which) (nth f (get_effect which g p) []) i j draw)
  | GibbsEffect which g draws => Some (edit_effect which g (fun e => gibbs_effect applicable e draws) p)
  end.
