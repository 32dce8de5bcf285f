(** Specification for C25, C28 and C56: probability vectors, admissible random draws, histories. *)
From Verif Require Export M_params.
Set Implicit Arguments.
Unset Strict Implicit.
Open Scope Q_scope.

(** Probability vectors. *)
Definition simplex (v : list Q) : Prop := Forall (fun q => 0 <= q) v /\ Qsum v == 1.
(** Probability vectors on the applicable states. *)
Definition simplex_on (app : list bool) (v : list Q) : Prop :=
  length v = length app /\ simplex v /\ forall s, nth s app false = false -> nth s v 0 == 0.
Definition effect_ok (applicable : list (list bool)) (p : effect) : Prop := Forall2 simplex_on applicable p.
(** All weights (with [m] components) and effects are probability vectors. *)
Definition params_ok (m : nat) (applicable : list (list bool)) (p : params) : Prop :=
  length (p_weights p) = length applicable /\
  Forall (fun w => length w = m /\ simplex w) (p_weights p) /\
  Forall (effect_ok applicable) (p_ce p) /\ Forall (Forall (effect_ok applicable)) (p_cf p).

(** What the random generators may return: two different entries ([random.sample]), points of the
    simplex ([np.random.dirichlet]; not finite = [None]), numbers in [0, 1] (beta distribution), any
    decision for each feature. *)
Definition dirichlet_draw (n : nat) (d : list Q) : Prop := length d = n /\ simplex d.
Definition opt_draw (n : nat) (d : option (list Q)) : Prop := match d with None => True | Some v => dirichlet_draw n v end.
Definition n_true (app : list bool) : nat := count_occ Bool.bool_dec app true.
Definition draws_ok (m : nat) (applicable : list (list bool)) (op : pop) : Prop :=
  match op with
  | AlterWeights f i j draw => (f < length applicable)%nat /\ (i < m)%nat /\ (j < m)%nat /\ i <> j /\ opt_draw 2 draw
  | GibbsWeights i j draws => (i < m)%nat /\ (j < m)%nat /\ i <> j /\ length draws = length applicable /\
      Forall (fun d => 0 <= fst d <= 1) draws
  | AlterEffect _ _ f i j draw => (f < length applicable)%nat /\ nth i (nth f applicable []) false = true /\
      nth j (nth f applicable []) false = true /\ i <> j /\ opt_draw 2 draw
  | GibbsEffect _ _ draws => Forall2 (fun app d => dirichlet_draw (n_true app) d) applicable draws
  end.

(** Histories: any sequence of operators, each proposal accepted or rejected. *)
Inductive phistory (m : nat) (applicable : list (list bool)) : params -> params -> Prop :=
| ph_start : forall p, phistory m applicable p p
| ph_accept : forall p p' p'' op, phistory m applicable p p' -> draws_ok m applicable op ->
    propose_params applicable op p' = Some p'' -> phistory m applicable p p''
| ph_reject : forall p p', phistory m applicable p p' -> phistory m applicable p p'.

(** Equality of rational vectors. *)
Definition vec_eq : list Q -> list Q -> Prop := Forall2 Qeq.

(** One number among the parameters: a weight, or an entry of the effect of a cluster or of a group of a
    confounder, and its value (0 if there is no such entry). *)
Inductive entry :=
| EWeight (f c : nat)
| ECluster (g f s : nat)
| EConf (k g f s : nat).
Definition value (p : params) (x : entry) : Q :=
  match x with
  | EWeight f c => nth c (nth f (p_weights p) []) 0
  | ECluster g f s => nth s (nth f (nth g (p_ce p) []) []) 0
  | EConf k g f s => nth s (nth f (nth g (nth k (p_cf p) []) []) []) 0
  end.
Definition effect_entry (which : option nat) (g f s : nat) : entry :=
  match which with None => ECluster g f s | Some k => EConf k g f s end.
(** The entries an operator may change: the two named entries of a Dirichlet random walk, the weights for
    the Gibbs operator on weights, the effect of the named group for the Gibbs operators on effects. *)
Definition may_change (op : pop) (x : entry) : Prop :=
  match op with
  | AlterWeights f i j _ => x = EWeight f i \/ x = EWeight f j
  | GibbsWeights _ _ _ => exists f c, x = EWeight f c
  | AlterEffect which g f i j _ => x = effect_entry which g f i \/ x = effect_entry which g f j
  | GibbsEffect which g _ => exists f s, x = effect_entry which g f s
  end.
