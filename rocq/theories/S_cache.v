(** Specification for C03, C04, C06, C07: what the likelihood and the prior of a sample are, computed
    from its parameters only, and which histories the properties talk about. *)
From Verif Require Import M_cache.
Set Implicit Arguments.
Open Scope Q_scope.

(** No object is in two groups. *)
Definition disjoint_groups (groups : bmat) : Prop :=
  forall o i j, nth o (nth i groups []) false = true -> nth o (nth j groups []) false = true -> i = j.

(** The first group that contains object [o]. *)
Definition group_of (groups : bmat) (o : nat) : option nat :=
  find (fun i => nth o (nth i groups []) false) (seq 0 (length groups)).

(** The likelihood of every observation under the group of its object: 0 without a group, 1 for a
    missing observation, otherwise the probability of the observed state. *)
Definition spec_component (nf : nat) (features : cube) (probs : list effect) (groups : bmat) : lhmat :=
  mapi (fun o f_o => map2 (fun (na : bool) v => if na then 1 else v) (na_row f_o)
    match group_of groups o with
    | None => repeat 0 nf
    | Some i => einsum_row f_o (nth i probs [])
    end) features.

Section Spec.
Variable V : Type.
Variable v_zero v_one : V.
Variable M : mdl V.

Definition spec_components (p : pars) : list lhmat :=
  spec_component (m_nfeatures M) (m_features M) (v_value (cluster_effect p)) (v_value (clusters p)) ::
  map2 (fun g e => spec_component (m_nfeatures M) (m_features M) (v_value e) g)
    (m_conf M) (confounding_effects p).

Definition spec_weights (p : pars) : list (list (option (list Q))) :=
  normalize_weights (v_value (weights p))
    (has_components (v_value (clusters p)) (m_conf M) (length (m_features M))).

(** Observation likelihoods from scratch. *)
Definition spec_likelihood (p : pars) : list (option Q) :=
  get_observation_lhs (spec_components p) (spec_weights p) (option_map (@v_value _) (source p)).

(** Prior terms from scratch. *)
Definition spec_prior (p : pars) : prior_terms V :=
  {| t_size := size_fn M (v_value (clusters p));
     t_geo := geo_fn M (v_value (clusters p));
     t_weights := weights_fn M (v_value (weights p));
     t_ce := ce_fn M (v_value (cluster_effect p));
     t_conf := mapi (fun c e => mapi (fun g row => conf_fn M c g row) (v_value e)) (confounding_effects p);
     t_src := option_map (fun s => src_fn M (source_weights (spec_weights p) (v_value s))) (source p) |}.

(** All prior terms except the geo-prior. *)
Definition same_but_geo (a b : prior_terms V) : Prop :=
  t_size a = t_size b /\ t_weights a = t_weights b /\ t_ce a = t_ce b /\ t_conf a = t_conf b /\
  t_src a = t_src b.

(** Arrays of consistent shapes. *)
Definition shapes_ok (cl : bmat) (ce : list effect) (cf : list (list effect)) (junk : list lhmat) : Prop :=
  length ce = length cl /\
  map (@length _) cf = map (@length _) (m_conf M) /\
  length junk = S (length (m_conf M)) /\
  Forall (fun m => length m = length (m_features M)) junk.

(** Histories: sets of samples that can arise when modifications satisfy [ok_edit] and evaluations
    of the likelihood only happen on parameters satisfying [ok_eval]. *)
Inductive reachable (ok_edit : edit -> Prop) (ok_eval : pars -> Prop) : list (sample V) -> Prop :=
| reach_init : reachable ok_edit ok_eval []
| reach_step : forall ss o, reachable ok_edit ok_eval ss ->
    match o with
    | ONew cl w ce cf src junk => shapes_ok cl ce cf junk
    | OEdit i e => ok_edit e
    | OLik i c => forall s, nth_error ss i = Some s -> ok_eval (s_pars s)
    | OCopy _ | OPrior _ _ | OClear _ => True
    end ->
    reachable ok_edit ok_eval (do_op v_zero v_one M ss o).

End Spec.

(** Modifications that go through [edit_group] or [set_items] (hence also [set_group],
    [add_object], [remove_object]). *)
Definition group_op {A} (o : pop A) : Prop :=
  match o with EditGroup _ _ | SetItems _ _ => True | _ => False end.

(** Modifications whose body did not raise. *)
Definition completed {A} (o : pop A) : Prop :=
  match o with AbortEdit _ | AbortEditGroup _ _ | RawAssign _ => False | _ => True end.

(** C03: tracked parameters are changed group-wise, the others in any completed way. *)
Definition tracked_edit (e : edit) : Prop :=
  match e with
  | EdClusters o => group_op o
  | EdCE o => group_op o
  | EdConf _ o => group_op o
  | EdWeights o => completed o
  | EdSource o => completed o
  end.

(** C06: only the confounding effects need group-wise changes. *)
Definition prior_edit (e : edit) : Prop :=
  match e with
  | EdClusters o => completed o
  | EdCE o => completed o
  | EdConf _ o => group_op o
  | EdWeights o => completed o
  | EdSource o => completed o
  end.

Definition disjoint_pars (p : pars) : Prop := disjoint_groups (v_value (clusters p)).

(** Histories without cache clears and without uncached evaluations: what a chain does without the debug mode, and
    in the debug mode from step 1001 on (mcmc.py:173, 196; M_tracked, C99). *)
Definition chain_op (o : op) : Prop :=
  match o with
  | OLik _ c | OPrior _ c => c = true
  | OClear _ => False
  | _ => True
  end.

(** Shapes of the arrays of one state: [nf] features everywhere, one effect per group, one weight per
    component. *)
Record well_shaped {V} (M : mdl V) (p : pars) : Prop := {
  ws_features : Forall (fun f_o => length f_o = m_nfeatures M) (m_features M);
  ws_ce : length (v_value (cluster_effect p)) = length (v_value (clusters p));
  ws_ce_f : Forall (fun e => length e = m_nfeatures M) (v_value (cluster_effect p));
  ws_conf : length (confounding_effects p) = length (m_conf M);
  ws_conf_g : forall c g e, nth_error (m_conf M) c = Some g -> nth_error (confounding_effects p) c = Some e ->
              length (v_value e) = length g;
  ws_conf_f : Forall (fun e => Forall (fun x => length x = m_nfeatures M) (v_value e)) (confounding_effects p);
  ws_weights : length (v_value (weights p)) = m_nfeatures M;
  ws_weights_c : Forall (fun w => length w = S (length (m_conf M))) (v_value (weights p)) }.

(** Observation (o, f) is missing. *)
Definition missing {V} (M : mdl V) (o f : nat) : Prop :=
  exists f_o v, nth_error (m_features M) o = Some f_o /\ nth_error f_o f = Some v /\ Forall (fun b => b = false) v.

(** Object [o] is in a cluster or in a group of some confounder. *)
Definition has_some_component {V} (M : mdl V) (p : pars) (o : nat) : Prop :=
  exists gs g, In gs (v_value (clusters p) :: m_conf M) /\ In g gs /\ nth o g false = true.
