(** Specification for C74: settings and samples for which no operator fails. *)
From Verif Require Export S_sampler M_progress.
Set Implicit Arguments.
Unset Strict Implicit.
Close Scope R_scope.
Open Scope Q_scope.

(** Data and settings: as [valid_setup], and there are features and a confounder, confounders have disjoint
    groups, every object belongs to a group of some confounder, and every feature has two applicable states if
    sources are not sampled. *)
Record complete_setup (su : setup) : Prop := {
  co_valid : valid_setup su;
  co_features : (0 < su_nf su)%nat /\ Forall (fun row => length row = su_nf su) (su_features su);
  co_conf : su_conf su <> [] /\ Forall (fun gs => gs <> [] /\ disjoint_groups gs) (su_conf su);
  co_group : forall o, (o < su_n su)%nat -> exists gs g, In gs (su_conf su) /\ In g gs /\ nth o g false = true;
  co_states : su_source su = false -> Forall (fun app => (2 <= n_true app)%nat) (su_applicable su) }.

(** Positive weights, and effects that are positive on the applicable states. *)
Definition pos_on (app : list bool) (row : list Q) : Prop := forall s, nth s app false = true -> 0 < nth s row 0.
Definition pos_effect (applicable : list (list bool)) (p : effect) : Prop := Forall2 pos_on applicable p.
Definition positive_params (applicable : list (list bool)) (p : params) : Prop :=
  Forall (Forall (fun q => 0 < q)) (p_weights p) /\ Forall (pos_effect applicable) (p_ce p) /\ Forall (Forall (pos_effect applicable)) (p_cf p).
Definition positive_sample (su : setup) (s : fsample) : Prop := valid_sample su s /\ positive_params (su_applicable su) (fs_params s).

(** Draws in the interior (draws of beta and Dirichlet distributions, up to rounding). *)
Definition interior (op : pop) : Prop :=
  match op with
  | AlterWeights _ _ _ draw | AlterEffect _ _ _ _ _ draw => match draw with Some d => Forall (fun q => 0 < q) d | None => True end
  | GibbsWeights _ _ draws => Forall (fun d => 0 < fst d < 1) draws
  | GibbsEffect _ _ draws => Forall (Forall (fun q => 0 < q)) draws
  end.
(** Results of the operators with such draws. *)
Inductive proposal_int (su : setup) (s : fsample) : kind -> result fsample -> Prop :=
| pi_clusters : forall k r, proposal su s k r -> In k [KAlterCluster; KGibbsish; KGibbsish2; KSource] -> proposal_int su s k r
| pi_gibbs_weights : forall i j draws p, draws_ok (su_nc su) (su_applicable su) (GibbsWeights i j draws) -> interior (GibbsWeights i j draws) ->
    propose_params (su_applicable su) (GibbsWeights i j draws) (fs_params s) = Some p ->
    proposal_int su s KGibbsWeights (RGibbs (with_params s p))
| pi_gibbs_effect : forall which g draws p, draws_ok (su_nc su) (su_applicable su) (GibbsEffect which g draws) -> interior (GibbsEffect which g draws) ->
    propose_params (su_applicable su) (GibbsEffect which g draws) (fs_params s) = Some p ->
    proposal_int su s (KGibbsEffect which) (RGibbs (with_params s p))
| pi_alter_weights : forall f i j draw p q qb, draws_ok (su_nc su) (su_applicable su) (AlterWeights f i j draw) -> interior (AlterWeights f i j draw) ->
    propose_params (su_applicable su) (AlterWeights f i j draw) (fs_params s) = Some p ->
    proposal_int su s KAlterWeights (RCopy (with_params s p) q qb)
| pi_alter_effect : forall which g f i j draw p q qb, draws_ok (su_nc su) (su_applicable su) (AlterEffect which g f i j draw) -> interior (AlterEffect which g f i j draw) ->
    propose_params (su_applicable su) (AlterEffect which g f i j draw) (fs_params s) = Some p ->
    proposal_int su s (KAlterEffect which) (RCopy (with_params s p) q qb)
| pi_no_weights : proposal_int su s KAlterWeights (RCopy s (Fin 0) NInf)
| pi_no_effect : forall which, proposal_int su s (KAlterEffect which) (RCopy s (Fin 0) NInf).
Definition drawn_int (su : setup) (ll pr : fsample -> xf) (sm0 : sampler fsample) (n : nat) (draws : nat -> nat -> draw fsample) : Prop :=
  forall i c sm ch, (i < n)%nat -> after ll pr (su_from_prior su) draws sm0 i = Ok sm -> nth_error (chains sm) c = Some ch ->
    exists k, nth_error (operators su) (d_op (draws i c)) = Some k /\ proposal_int su (content (c_obj ch)) k (d_prop (draws i c) (content (c_obj ch))).

(** Decidable equality of source arrays. *)
Definition cube_dec (a b : cube) : {a = b} + {a <> b}.
Proof. repeat decide equality. Defined.
