(** Model of [ClusterMCMC] as a whole: the initial sample (sbayes/sampling/sbayes_sampling.py:93-349), the list
    of operators (365-461) and complete samples with clusters, weights, effects and sources.  It composes the
    models of the parts ([M_init], [M_source], [M_operators], [M_params]); the loop is that of [M_mcmc].
    Sharing of arrays and caches are the subject of [M_state] and [M_cache]. *)
From Coq Require Export Reals Qreals.
From Verif Require Export M_mcmc M_init M_source M_params.
Set Implicit Arguments.
Unset Strict Implicit.
Close Scope R_scope.
Open Scope Q_scope.

(** sbayes_sampling.py:29-75 -- what the sampler knows: data, network, model and settings. *)
Record setup := {
  su_features : cube; su_applicable : list (list bool);     (* data.features.values, data.features.states *)
  su_conf : list bmat;                                      (* group assignment of every confounder *)
  su_adj : bmat; su_pconn : Q;                              (* network.adj_mat, p_grow_connected *)
  su_k : nat; su_min : nat; su_max : nat; su_init : nat;    (* n_clusters, min_size, max_size, initial_size *)
  su_source : bool; su_from_prior : bool }.                 (* model.sample_source, sample_from_prior *)
Definition su_n (su : setup) : nat := length (su_features su).
Definition su_nf (su : setup) : nat := length (su_applicable su).
(** sbayes_sampling.py:61 -- [n_sources]. *)
Definition su_nc (su : setup) : nat := S (length (su_conf su)).

(** state.py:383-416 -- a sample. *)
Record fsample := { fs_clusters : bmat; fs_params : params; fs_source : option cube }.
Definition fs_cstate (s : fsample) : cstate := {| x_clusters := fs_clusters s; x_source := fs_source s |}.

(** sbayes_sampling.py:387-411, 435-442 -- what the cluster and source operators read.  [resample_source] is
    [sample_source] (for [AlterCluster] it is [False], which is also the value of [sample_source] there). *)
Definition env_of (su : setup) (p : params) : env :=
  {| e_features := su_features su; e_nf := su_nf su; e_conf := su_conf su; e_weights := p_weights p;
     e_ce := p_ce p; e_cf := p_cf p; e_adj := su_adj su; e_pconn := su_pconn su; e_min := su_min su; e_max := su_max su;
     e_resample := su_source su; e_from_prior := su_from_prior su |}.

(** All entries defined, otherwise [None]. *)
Fixpoint all_some {A} (l : list (option A)) : option (list A) :=
  match l with [] => Some [] | Some x :: r => option_map (cons x) (all_some r) | None :: _ => None end.

(** sbayes_sampling.py:190-207 and the assertion in 338; [None] is the AssertionError for NaN weights. *)
Definition generate_initial_weights (su : setup) (prev : option fsample) : option (list (list Q)) :=
  all_some (map normalize (match prev with
                           | Some p => p_weights (fs_params p)
                           | None => repeat (repeat 1 (su_nc su)) (su_nf su)
                           end)).
(** sbayes_sampling.py:209-253 -- [None] stands for an IndexError (more groups in the previous sample than
    clusters) or for undefined probabilities (a feature without applicable and observed states; the code goes
    on with NaN, which is not followed here). *)
Definition generate_initial_cluster_effect (su : setup) (prev : option fsample) (cl : bmat) : option (list effect) :=
  let old := match prev with Some p => p_ce (fs_params p) | None => [] end in
  if (su_k su <? length old)%nat then None else
  option_map (fun new => old ++ new)
    (all_some (map (fun i => all_some (initial_effect (su_features su) (nth i cl []) (su_applicable su)))
                   (seq (length old) (su_k su - length old)))).
(** sbayes_sampling.py:255-301 -- effects of one confounder with the groups [groups]; [old] are its effects in
    the previous sample, rows without counterpart remain zero. *)
Definition generate_initial_confounding_effect (su : setup) (old : option (list effect)) (groups : bmat) : option (list effect) :=
  match old with
  | Some p => if (length groups <? length p)%nat then None
              else Some (p ++ repeat (map (fun app => map (fun _ => 0) app) (su_applicable su)) (length groups - length p))
  | None => all_some (map (fun g => all_some (initial_effect (su_features su) g (su_applicable su))) groups)
  end.
(** sbayes_sampling.py:317-320 -- all confounders; [None] also for a KeyError. *)
Definition generate_initial_confounding_effects (su : setup) (prev : option fsample) : option (list (list effect)) :=
  match prev with
  | None => all_some (map (generate_initial_confounding_effect su None) (su_conf su))
  | Some p => if (length (p_cf (fs_params p)) <? length (su_conf su))%nat then None
              else all_some (map2 (fun old g => generate_initial_confounding_effect su (Some old) g) (p_cf (fs_params p)) (su_conf su))
  end.
(** sbayes_sampling.py:303-349 -- [generate_initial_sample]: the distribution of the initial sample, given the
    choices [rnd] for the clusters; [None] if an exception is raised (or [fuel] is too small).  [junk] is the
    uninitialised array (326); the source operator works on the new clusters, weights and effects. *)
Definition generate_initial_sample (su : setup) (prev : option fsample) (rnd : nat -> nat) (fuel : nat) (junk : cube) : option (dist fsample) :=
  match generate_initial_clusters (su_n su) (su_adj su) (su_init su) (su_k su) rnd (match prev with Some p => fs_clusters p | None => [] end) fuel with
  | Some (Clusters_ok cl) =>
      match generate_initial_weights su prev, generate_initial_cluster_effect su prev cl, generate_initial_confounding_effects su prev with
      | Some w, Some ce, Some cf =>
          let p := {| p_weights := w; p_ce := ce; p_cf := cf |} in
          Some (if su_source su
                then bind (initial_source (env_of su p) cl junk) (fun out =>
                       match out with
                       | Propose y _ _ => ret {| fs_clusters := cl; fs_params := p; fs_source := x_source y |}
                       | _ => []
                       end)
                else ret {| fs_clusters := cl; fs_params := p; fs_source := None |})
      | _, _, _ => None
      end
  | _ => None
  end.

(** sbayes_sampling.py:365-461 -- the operators, in the order of the dictionary. *)
Inductive kind :=
| KAlterCluster | KGibbsish | KGibbsish2 | KSource | KGibbsWeights | KGibbsEffect (which : option nat)
| KAlterWeights | KAlterEffect (which : option nat).
Definition operators (su : setup) : list kind :=
  if su_source su then
    [KGibbsish; KGibbsish2; KSource; KGibbsWeights; KGibbsEffect None] ++ mapi (fun k _ => KGibbsEffect (Some k)) (su_conf su)
  else
    [KAlterCluster; KAlterWeights; KAlterEffect None] ++ mapi (fun k _ => KAlterEffect (Some k)) (su_conf su).

(** [np.log] of a probability reported by an operator ([None] = NaN). *)
Definition log_q (q : option Q) : xf :=
  match q with None => NaN | Some r => if Rlt_dec 0 (Q2R r) then Fin (ln (Q2R r)) else NInf end.
(** What a cluster operator returns to the accept/reject step (operators.py:782 ff., 815, 859, 914, 1054, 1102);
    [None] is an exception. *)
Definition cluster_result (s : fsample) (out : outcome) : option (result fsample) :=
  match out with
  | Reject => Some (RReject fsample)
  | Propose y q qb => Some (RCopy {| fs_clusters := x_clusters y; fs_params := fs_params s; fs_source := x_source y |} (log_q q) (log_q qb))
  | Fail => None
  end.
(** operators.py:284-313 -- [GibbsSampleSource] changes the sample in place. *)
Definition source_result (s : fsample) (out : outcome) : option (result fsample) :=
  match out with
  | Propose y _ _ => Some (RGibbs {| fs_clusters := fs_clusters s; fs_params := fs_params s; fs_source := x_source y |})
  | _ => None
  end.
Definition with_params (s : fsample) (p : params) : fsample :=
  {| fs_clusters := fs_clusters s; fs_params := p; fs_source := fs_source s |}.
