(** Specification for C100: the probabilities with which one step on sample objects makes a move, and what the loop
    knows about the sample of a chain. *)
From Verif Require Export M_program S_tracked S_joint.
From Verif Require Import M_source M_gweights S_model S_operators S_source S_params S_mcmc S_honest S_gsource S_sampler S_progress P_gweights.
From Verif Require Export M_dist M_operators.
Set Implicit Arguments.
Unset Strict Implicit.
Open Scope R_scope.

Section Program.
Variable su : setup.
Variable M : mdl xf.
Variable lnB : list R -> R.
Variable dpdf : list Q -> list Q -> R.
Variable bpdf : R -> R -> R -> R.
Variable prs : nat -> nat -> effect_prior.
Variable checks : bool.

(** The operator of a move of clusters or sources. *)
Definition move_kind (m : move) : kind :=
  match m with Cluster OpAlter => KAlterCluster | Cluster OpGibbsish => KGibbsish | Cluster OpGibbsish2 => KGibbsish2 | Source => KSource end.
(** The probability over the uniform draw that the object [s'] is accepted, with the values of its evaluation (from its
    cache) and the values remembered by the chain. *)
Definition accepted (ch : chain tsample) (s' : tsample) (q qb : xf) : R :=
  match t_eval su M checks (i_step (c_obj ch)) s' with
  | Done (_, ll, pr) => acc_prob 1 ll (c_ll ch) pr (c_prior ch) q qb
  | _ => 0
  end.
Definition copy_density (ch : chain tsample) (r : result tsample) : R :=
  match r with RCopy s' (Fin q) (Fin qb) => exp q * accepted ch s' (Fin q) (Fin qb) | _ => 0 end.
(** The probability or density with which a step on objects makes a move. *)
Definition object_density (mv : full_move) (ch : chain tsample) : R :=
  let s := content (c_obj ch) in
  match mv with
  | Discrete m y =>
      S_mcmc.Rsum (map (fun '((_, o), p) =>
        match o with
        | TPropose s' q qb => if cstate_eq_dec (fs_cstate (view s')) y then Q2R p * accepted ch s' (log_q q) (log_q qb) else 0
        | _ => 0
        end) (run_tracked su M (move_kind m) s))
  | Param (AlterWeights f i j d) => copy_density ch (t_alter_weights M dpdf f i j d s)
  | Param (AlterEffect which g f i j d) => copy_density ch (t_alter_effect M dpdf which g f i j d s)
  | Param (GibbsWeights i j draws) =>
      match tv_source s with
      | Some src => move_density bpdf (snd (read_has s)) src i j (map fst draws) (map snd draws) (tv_weights s)
      | None => 0
      end
  | Param (GibbsEffect which g draws) =>
      match tv_source s with
      | Some src => exp (M_conj.Rsum (map (fun f => dirichlet_logpdf lnB (map Q2R (nth f draws []))
          (gibbs_alpha (env_of su (fs_params (view s))) (tv_clusters s) src (su_applicable su) (prior_of prs which g) which g f)) (seq 0 (su_nf su))))
      | None => 0
      end
  end.

(** The calls of operators on weights and effects that make a move; [u] are the uniform draws of [GibbsSampleWeights]. *)
Definition call_of (op : pop) (u : list R) : kind * choice :=
  match op with
  | AlterWeights f i j d => (KAlterWeights, CAlterWeights f i j d)
  | AlterEffect which g f i j d => (KAlterEffect which, CAlterEffect g f i j d)
  | GibbsWeights i j draws => (KGibbsWeights, CGibbsWeights i j (map fst draws) u)
  | GibbsEffect which g draws => (KGibbsEffect which, CGibbsEffect g draws)
  end.
(** The uniform draws accept exactly the features marked in the move. *)
Definition bits_match (op : pop) (u : list R) (s : fsample) : Prop :=
  match op, fs_source s with
  | GibbsWeights i j draws, Some src => length draws = su_nf su /\ forall f d, nth_error draws f = Some d ->
      snd d = below_exp (nth f u 0) (log_p_accept bpdf (has_components (fs_clusters s) (su_conf su) (su_n su)) src i j (map fst draws) (p_weights (fs_params s)) f)
  | _, _ => True
  end.

(** The object remembers [g] as its geo-prior. *)
Definition remembers (s : tsample) (g : xf) : Prop := n_ver (k_geo (s_cache s)) = Some [] /\ n_val (k_geo (s_cache s)) = g.
(** The sample of a chain is an object with some history, has positive probabilities, remembers [g], and the values
    remembered by the chain are those of its contents, with [g] in the place of the geo-prior. *)
Record running (g : R) (ch : chain tsample) : Prop := {
  ru_history : history M (content (c_obj ch));
  ru_sample : positive_sample su (view (content (c_obj ch)));
  ru_geo : remembers (content (c_obj ch)) (Fin g);
  ru_ll : c_ll ch = if su_from_prior su then Fin 0 else scratch_ll M (view (content (c_obj ch)));
  ru_prior : c_prior ch = prior_with M (Fin g) (view (content (c_obj ch))) }.
End Program.

(** The weight of clusters under the size prior alone, and under the size prior and the geo-prior. *)
Definition by_size (size : bmat -> xf) (cl : bmat) : R := dens (size cl).
Definition by_size_and_geo (size geo : bmat -> xf) (cl : bmat) : R := dens (size cl) * dens (geo cl).

(** * States of a run *)
(** The draws of a proposal are in the interior. *)
Definition interior_choice (ch : choice) : Prop :=
  match ch with
  | CNth _ => True
  | CGibbsWeights _ _ a2 _ => Forall (fun a => 0 < a < 1)%Q a2
  | CGibbsEffect _ draws => Forall (Forall (fun q => 0 < q)%Q) draws
  | CAlterWeights _ _ _ draw | CAlterEffect _ _ _ _ draw => match draw with Some d => Forall (fun q => 0 < q)%Q d | None => True end
  end.
(** The geo-prior of the configuration does not meet the assertions: they are switched off, or it is the same number
    for all clusters. *)
Definition safe (geo : bmat -> xf) (checks : bool) (g : R) : Prop := checks = false \/ forall cl, geo cl = Fin g.
