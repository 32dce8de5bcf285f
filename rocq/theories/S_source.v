(** Specification for C26: one admissible source per observation. *)
From Verif Require Export M_source S_operators.
Set Implicit Arguments.
Unset Strict Implicit.
Open Scope Q_scope.

(** Component [c] is available for object [o]: the clusters (c = 0) or confounder [c - 1] has a group that
    contains it. *)
Definition component_available (cl : bmat) (conf : list bmat) (o c : nat) : Prop :=
  exists gs g, nth_error (cl :: conf) c = Some gs /\ In g gs /\ nth o g false = true.
(** Exactly one component for every observation of [n] objects and [nf] features... *)
Definition one_source (n nf nc : nat) (s : cube) : Prop :=
  length s = n /\ forall o row, nth_error s o = Some row -> length row = nf /\
    forall f v, nth_error row f = Some v -> length v = nc /\
      exists c, nth_error v c = Some true /\ forall d, nth_error v d = Some true -> d = c.
(** ... and it is available. *)
Definition admissible (cl : bmat) (conf : list bmat) (s : cube) : Prop :=
  forall o row f v c, nth_error s o = Some row -> nth_error row f = Some v -> nth_error v c = Some true ->
    component_available cl conf o c.

(** Parameters and data for which the source probabilities are defined: positive weights, every object in
    a group of some confounder, effects that are non-negative and positive at the observed states. *)
Record positive_env (e : env) : Prop := {
  pe_weights : length (e_weights e) = e_nf e;
  pe_weights_c : Forall (fun w => length w = n_comps e /\ Forall (fun q => 0 < q) w) (e_weights e);
  pe_features : Forall (fun row => length row = e_nf e) (e_features e);
  pe_cf : length (e_cf e) = length (e_conf e);
  pe_cf_g : forall k gs ps, nth_error (e_conf e) k = Some gs -> nth_error (e_cf e) k = Some ps -> length ps = length gs;
  pe_effects : forall p, In p (e_ce e) \/ (exists ps, In ps (e_cf e) /\ In p ps) ->
    length p = e_nf e /\ (forall f s, 0 <= nth s (nth f p []) 0) /\
    forall o f s, nth s (nth f (nth o (e_features e) []) []) false = true -> 0 < nth s (nth f p []) 0;
  pe_conf : Forall disjoint_groups (e_conf e);
  pe_group : forall o, (o < n_objects e)%nat -> exists gs g, In gs (e_conf e) /\ In g gs /\ nth o g false = true }.

(** Histories of a chain with sampled sources over [n] objects, [nf] features and the confounders [conf]:
    it starts with the initial source; then proposals of any cluster operator or of [GibbsSampleSource]
    are accepted or rejected; weights and effects (the environment) may change in between. *)
Definition setting (n nf k : nat) (conf : list bmat) (e : env) : Prop :=
  n_objects e = n /\ e_nf e = nf /\ e_conf e = conf /\ e_resample e = true /\ length (e_ce e) = k.
Inductive source_history (ok : env -> Prop) (n nf k : nat) (conf : list bmat) : cstate -> Prop :=
| sh_start : forall e cl junk x q qb, ok e -> setting n nf k conf e -> length junk = n ->
    cluster_shape k n cl -> disjoint_groups cl ->
    supp (initial_source e cl junk) (Propose x q qb) -> source_history ok n nf k conf x
| sh_reject : forall x, source_history ok n nf k conf x -> source_history ok n nf k conf x
| sh_cluster : forall e o x y, source_history ok n nf k conf x -> ok e -> setting n nf k conf e ->
    can_propose e o x y -> source_history ok n nf k conf y
| sh_source : forall e x y q qb, source_history ok n nf k conf x -> ok e -> setting n nf k conf e ->
    supp (gibbs_source e x) (Propose y q qb) -> source_history ok n nf k conf y.
