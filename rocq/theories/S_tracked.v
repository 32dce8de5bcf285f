(** Specification for C98 and C99: the sampler on plain samples (contents only, everything evaluated from
    scratch), and the same with a memory for the geo-prior. *)
From Verif Require Export S_cache S_sampler M_tracked.
From Verif Require Export M_dist M_operators.
Set Implicit Arguments.
Unset Strict Implicit.
Close Scope R_scope.
Close Scope Q_scope.
Open Scope nat_scope.

(** The contents of a sample object. *)
Definition view (s : tsample) : fsample :=
  {| fs_clusters := tv_clusters s; fs_params := {| p_weights := tv_weights s; p_ce := tv_ce s; p_cf := tv_cf s |}; fs_source := tv_source s |}.
(** A parameter object for given contents. *)
Definition fresh_pars (s : fsample) : pars :=
  {| clusters := new_pval (fs_clusters s); weights := new_pval (p_weights (fs_params s));
     cluster_effect := new_pval (p_ce (fs_params s)); confounding_effects := map (@new_pval effect) (p_cf (fs_params s));
     source := option_map (@new_pval (list (list bool))) (fs_source s) |}.

(** The model [M] belongs to the setting [su]; an object is in at most one group of a confounder. *)
Record fits (su : setup) (M : mdl xf) : Prop := {
  ft_features : m_features M = su_features su;
  ft_nf : m_nfeatures M = su_nf su;
  ft_conf : m_conf M = su_conf su;
  ft_disjoint : Forall disjoint_groups (su_conf su) }.

(** Log-likelihood and log-prior from scratch; [prior_with g] is the prior with [g] as value of the geo-prior. *)
Definition scratch_ll (M : mdl xf) (s : fsample) : xf := log_sum (spec_likelihood M (fresh_pars s)).
Definition prior_with (M : mdl xf) (g : xf) (s : fsample) : xf :=
  let t := spec_prior M (fresh_pars s) in
  log_prior {| t_size := t_size t; t_geo := g; t_weights := t_weights t; t_ce := t_ce t; t_conf := t_conf t; t_src := t_src t |}.
Definition scratch_prior (M : mdl xf) (s : fsample) : xf := log_prior (spec_prior M (fresh_pars s)).

(** Histories of one sample object: created, copied, read, evaluated, cleared and edited group-wise (the other
    arrays in any completed way); likelihoods are only read when the clusters are disjoint. *)
Inductive history (M : mdl xf) : tsample -> Prop :=
| hi_new : forall cl w ce cf src junk, shapes_ok M cl ce cf junk -> history M (new_sample (Fin 0) (Fin 1) M cl w ce cf src junk)
| hi_copy : forall s, history M s -> history M (copied M s)
| hi_clear : forall s, history M s -> history M (cleared s)
| hi_edit : forall e s, tracked_edit e -> history M s -> history M (edited e s)
| hi_lhs : forall s, history M s -> disjoint_groups (tv_clusters s) -> history M (fst (read_lhs M s))
| hi_weights : forall s, history M s -> history M (fst (read_weights s))
| hi_has : forall s, history M s -> history M (fst (read_has s))
| hi_likelihood : forall caching s, history M s -> disjoint_groups (tv_clusters s) -> history M (fst (likelihood M caching s))
| hi_prior : forall caching s, history M s -> history M (fst (prior M caching s)).

(** [s] can be the initial sample object. *)
Definition t_starts (su : setup) (M : mdl xf) (prev : option fsample) (s : tsample) : Prop :=
  exists rnd fuel junk junk_lhs d, length junk = su_n su /\
    length junk_lhs = su_nc su /\ Forall (fun m => length m = su_n su) junk_lhs /\
    t_generate_initial_sample su M prev rnd fuel junk junk_lhs = Some d /\ supp d s.

(** Outcomes without caches. *)
Definition view_out (o : tout) : outcome :=
  match o with TReject => Reject | TPropose s q qb => Propose (fs_cstate (view s)) q qb | TFail => Fail end.

(** The operators that draw from finitely many results. *)
Definition finite_op (k : kind) : bool :=
  match k with KAlterCluster | KGibbsish | KGibbsish2 | KSource => true | _ => false end.
Definition run_tracked (su : setup) (M : mdl xf) (k : kind) (s : tsample) : dist (tsample * tout) :=
  match k with
  | KAlterCluster => t_alter_cluster su M s | KGibbsish => t_gibbsish su M s
  | KGibbsish2 => t_gibbsish2 su M s | KSource => t_gibbs_source su M s | _ => [] end.
Definition run_plain (su : setup) (k : kind) (s : fsample) : dist outcome :=
  let e := env_of su (fs_params s) in
  match k with
  | KAlterCluster => alter_cluster e (fs_cstate s) | KGibbsish => gibbsish e (fs_cstate s)
  | KGibbsish2 => gibbsish2 e (fs_cstate s) | KSource => gibbs_source e (fs_cstate s) | _ => [] end.

(** A sample with the number remembered as its geo-prior, see below. *)
Notation memory := (fsample * option xf)%type (only parsing).

Section Plain.
Variable su : setup.
Variable M : mdl xf.
Variable bpdf : R -> R -> R -> R.
Variable dpdf : list Q -> list Q -> R.

(** One proposal on contents; weights, likelihoods and [has_components] are computed from scratch. *)
Definition nth_plain (k : kind) (n : nat) (s : fsample) : option (result fsample) :=
  match nth_error (possible (run_plain su k s)) n with
  | Some (out, _) => match k with KSource => source_result s out | _ => cluster_result s out end
  | None => None
  end.
Definition with_weights_of (s : fsample) (w : list (list Q)) : fsample :=
  with_params s {| p_weights := w; p_ce := p_ce (fs_params s); p_cf := p_cf (fs_params s) |}.
Definition plain_kind (k : kind) (ch : choice) (s : fsample) : option (result fsample) :=
  let p := fs_params s in
  match k, ch with
  | KAlterCluster, CNth n | KGibbsish, CNth n | KGibbsish2, CNth n | KSource, CNth n => nth_plain k n s
  | KGibbsWeights, CGibbsWeights i j a2 u =>
      option_map (fun src => RGibbs (with_weights_of s
        (gibbs_sample_weights bpdf (has_components (fs_clusters s) (su_conf su) (su_n su)) src i j a2 u (p_weights p)))) (fs_source s)
  | KGibbsEffect which, CGibbsEffect g draws =>
      option_map (fun p' => RGibbs (with_params s p')) (propose_params (su_applicable su) (GibbsEffect which g draws) p)
  | KAlterWeights, CAlterWeights f i j draw =>
      Some match propose_params (su_applicable su) (AlterWeights f i j draw) p, alter_pair dpdf prec_weights (nth f (p_weights p) []) i j draw with
           | Some p', Some (_, q, qb) => RCopy (with_params s p') (Fin q) (Fin qb)
           | _, _ => RCopy s (Fin 0) NInf
           end
  | KAlterEffect which, CAlterEffect g f i j draw =>
      Some match propose_params (su_applicable su) (AlterEffect which g f i j draw) p,
                 alter_pair dpdf (prec_effect which) (nth f (get_effect which g p) []) i j draw with
           | Some p', Some (_, q, qb) => RCopy (with_params s p') (Fin q) (Fin qb)
           | _, _ => RCopy s (Fin 0) NInf
           end
  | _, _ => None
  end.
Definition plain_propose (op : nat) (ch : choice) (s : fsample) : option (fsample * result fsample) :=
  match nth_error (operators su) op with Some k => option_map (fun r => (s, r)) (plain_kind k ch s) | None => None end.

(** The random numbers of a proposal are in range. *)
Definition choice_ok (k : kind) (ch : choice) : Prop :=
  match k, ch with
  | KGibbsWeights, CGibbsWeights i j a2 u => draws_ok (su_nc su) (su_applicable su) (GibbsWeights i j (map (fun a => (a, true)) a2))
  | KGibbsEffect which, CGibbsEffect g draws => draws_ok (su_nc su) (su_applicable su) (GibbsEffect which g draws)
  | KAlterWeights, CAlterWeights f i j draw => draws_ok (su_nc su) (su_applicable su) (AlterWeights f i j draw)
  | KAlterEffect which, CAlterEffect g f i j draw => draws_ok (su_nc su) (su_applicable su) (AlterEffect which g f i j draw)
  | _, _ => True
  end.
Definition draw_ok (d : tdraw) : Prop := forall k, nth_error (operators su) (td_op d) = Some k -> choice_ok k (td_choice d).

(** Evaluation from scratch; an evaluation that is checked (mcmc.py:174-175, 196-197) fails iff it is NaN. *)
Definition checked (checks : bool) (i : nat) (x : xf) : bool := negb (due checks i) || match x with NaN => false | _ => true end.
Definition plain_eval (checks : bool) (i : nat) (s : fsample) : ext (fsample * xf * xf) :=
  let ll := if su_from_prior su then Fin 0 else scratch_ll M s in
  if checked checks i ll && checked checks i (scratch_prior M s) then Done (s, ll, scratch_prior M s) else Assertion.
Definition plain_run (checks : bool) := t_generate_samples plain_propose (plain_eval checks) (length (operators su)).
Definition plain_warm_up (checks : bool) := t_warm_up plain_propose (plain_eval checks) (length (operators su)).

(** * With a memory for the geo-prior
    The number remembered with a sample, if any, is used as its geo-prior whatever its clusters are; a sample
    without memory gets the geo-prior of its clusters.  Copies inherit the memory.  A checked likelihood
    deletes it, a checked prior fails if it does not lead to the prior from scratch. *)
Definition map_result {X Y} (h : X -> Y) (r : result X) : result Y :=
  match r with RReject _ => RReject Y | RGibbs s => RGibbs (h s) | RCopy s q qb => RCopy (h s) q qb | RInPlace s q qb => RInPlace (h s) q qb end.
Definition memory_propose (op : nat) (ch : choice) (x : memory) : option (memory * result memory) :=
  option_map (fun '(_, r) => (x, map_result (fun s => (s, snd x)) r)) (plain_propose op ch (fst x)).
Definition memory_eval (checks : bool) (i : nat) (x : memory) : ext (memory * xf * xf) :=
  let '(s, m) := x in
  let geo := geo_fn M (fs_clusters s) in
  let ll := if su_from_prior su then Fin 0 else scratch_ll M s in
  let m := if due checks i && negb (su_from_prior su) then None else m in
  let used := match m with Some g => g | None => geo end in
  if negb (checked checks i ll) then Assertion
  else if due checks i then
    if xeqb (prior_with M used s) (prior_with M geo s) then Done ((s, Some geo), ll, prior_with M used s) else Assertion
  else Done ((s, Some used), ll, prior_with M used s).
Definition memory_run (checks : bool) := t_generate_samples memory_propose (memory_eval checks) (length (operators su)).
Definition memory_warm_up (checks : bool) := t_warm_up memory_propose (memory_eval checks) (length (operators su)).
End Plain.

(** * Runs seen through a function on samples *)
Section Views.
Variables (X Y : Type) (h : X -> Y).
Definition map_obj (o : obj X) : obj Y := {| content := h (content o); i_step := i_step o; last_lh := last_lh o; last_prior := last_prior o |}.
Definition map_chain (c : chain X) : chain Y := {| c_obj := map_obj (c_obj c); c_ll := c_ll c; c_prior := c_prior c |}.
Definition map_sampler (sm : sampler X) : sampler Y := {| chains := map map_chain (chains sm); statistics := statistics sm |}.
Definition map_log (l : list (nat * obj X)) : list (nat * obj Y) := map (fun '(i, o) => (i, map_obj o)) l.
Definition map_run (r : sampler X * list (nat * obj X) * option (obj X)) : sampler Y * list (nat * obj Y) * option (obj Y) :=
  let '(sm, log, last) := r in (map_sampler sm, map_log log, option_map map_obj last).
Definition map_warm (r : option (obj X) * sampler X) : option (obj Y) * sampler Y := (option_map map_obj (fst r), map_sampler (snd r)).
End Views.
Definition ext_map {A B} (f : A -> B) (x : ext A) : ext B :=
  match x with Done a => Done (f a) | Raised e => Raised e | Assertion => Assertion | Failed => Failed end.

(** The draws of [M_mcmc] for given choices. *)
Definition plain_draw (su : setup) (bpdf : R -> R -> R -> R) (dpdf : list Q -> list Q -> R) (d : tdraw) : draw fsample :=
  {| d_op := td_op d; d_u := td_u d;
     d_prop := fun s => match plain_propose su bpdf dpdf (td_op d) (td_choice d) s with Some (_, r) => r | None => RReject fsample end |}.

(** * Without the geo-prior *)
Definition no_geo (M : mdl xf) : mdl xf :=
  {| m_features := m_features M; m_nfeatures := m_nfeatures M; m_conf := m_conf M; size_fn := size_fn M; geo_fn := fun _ => Fin 0;
     weights_fn := weights_fn M; ce_fn := ce_fn M; conf_fn := conf_fn M; src_fn := src_fn M |}.
(** Runs up to the recorded values of the prior. *)
Definition blind_obj (o : obj fsample) : obj fsample := {| content := content o; i_step := i_step o; last_lh := last_lh o; last_prior := None |}.
Definition blind_chain (c : chain fsample) : chain fsample := {| c_obj := blind_obj (c_obj c); c_ll := c_ll c; c_prior := Fin 0 |}.
Definition blind_sampler (sm : sampler fsample) : sampler fsample := {| chains := map blind_chain (chains sm); statistics := statistics sm |}.
Definition blind_log (l : list (nat * obj fsample)) : list (nat * obj fsample) := map (fun '(i, o) => (i, blind_obj o)) l.
Definition blind_run (r : sampler fsample * list (nat * obj fsample) * option (obj fsample)) :=
  let '(sm, log, last) := r in (blind_sampler sm, blind_log log, option_map blind_obj last).

(** The recorded prior of a chain's sample is the one with the remembered number as geo-prior. *)
Definition settled (M : mdl xf) (ch : chain memory) : Prop :=
  exists g, snd (content (c_obj ch)) = Some g /\ c_prior ch = prior_with M g (fst (content (c_obj ch))).
Definition finite_memory (ch : chain memory) : Prop := exists r, snd (content (c_obj ch)) = Some (Fin r).
(** The same chain in the model without the geo-prior. *)
Definition forget_geo (M : mdl xf) (ch : chain memory) : chain fsample :=
  {| c_obj := map_obj fst (c_obj ch); c_ll := c_ll ch; c_prior := scratch_prior (no_geo M) (fst (content (c_obj ch))) |}.
