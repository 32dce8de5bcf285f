(** Model of the operators ([sbayes/sampling/operators.py], 77-1102), of the initial sample
    (sbayes_sampling.py:303-349) and of the loop ([sbayes/sampling/mcmc.py], 163-364) on the sample objects
    of [M_cache]: parameters with version numbers and the cache of every sample.  Every operator reads the
    cached component likelihoods, the cached normalized weights and [has_components] of the samples where the
    code does, and changes parameters through the interface of state.py.  The assertions of [CHECK_CACHING]
    (mcmc.py:105, 174-175, 196-197) are included.

    Simplifications: those of [M_cache] (copied arrays are values, C01) and [M_operators] (exact rational
    probabilities; logarithms are real).  Operators that choose among finitely many results are finite
    distributions; for the others the random numbers are arguments.  [mdl] is the model of all chains
    ([model_by_chain] holds copies of it, mcmc.py:139-141). *)
From Verif Require Export M_slow M_sampler M_gweights.
From Verif Require Export M_dist M_operators.
Set Implicit Arguments.
Unset Strict Implicit.
Close Scope R_scope.
Close Scope Q_scope.
Open Scope nat_scope.

(** A sample object. *)
Definition tsample := M_cache.sample xf.

(** The outcomes with positive probability of a finite distribution, in order. *)
Definition possible {A} (d : dist A) : dist A := filter (fun '(_, q) => negb (Qeq_bool q 0)) d.

(** Result of a cluster or source operator: a direct rejection, a sample with forward and backward
    probability ([None] = NaN), or an exception. *)
Inductive tout := TReject | TPropose (s : tsample) (q q_back : option Q) | TFail.

Section Tracked.
Variable su : setup.
Variable M : mdl xf.

(** * Reading cached values *)
Definition with_cache (s : tsample) (k : cache xf) : tsample := {| s_pars := s_pars s; s_cache := k |}.
(** likelihood.py:82-143 -- [update_component_likelihoods(sample)]. *)
Definition read_lhs (s : tsample) : tsample * list lhmat :=
  let n := update_component_likelihoods M true (s_pars s) (k_comp (s_cache s)) in
  (with_cache s (set_comp (s_cache s) n), n_val n).
(** likelihood.py:162-177 -- [update_weights(sample)]. *)
Definition read_weights (s : tsample) : tsample * list (list (option (list Q))) :=
  let k := M_cache.update_weights true (s_pars s) (s_cache s) in (with_cache s k, n_val (k_wn k)).
Definition set_hc (k : cache xf) (n : node (list (list bool))) : cache xf :=
  {| k_comp := k_comp k; k_wn := k_wn k; k_hc := n; k_size := k_size k; k_geo := k_geo k;
     k_wp := k_wp k; k_cep := k_cep k; k_confp := k_confp k; k_srcp := k_srcp k |}.
(** state.py:284-291 -- [sample.cache.has_components.value]. *)
Definition read_has (s : tsample) : tsample * list (list bool) :=
  let n := hc_value (s_pars s) (k_hc (s_cache s)) in (with_cache s (set_hc (s_cache s) n), n_val n).

(** * Changing and copying *)
Definition edited (e : edit) (s : tsample) : tsample := {| s_pars := do_edit_pars e (s_pars s); s_cache := s_cache s |}.
(** state.py:440-459 -- [sample.copy()]. *)
Definition copied (s : tsample) : tsample := copy_sample (Fin 0) M s.
(** state.py:461-462 -- [everything_changed]. *)
Definition cleared (s : tsample) : tsample := with_cache s (clear_cache (s_cache s)).

Definition tv_clusters (s : tsample) : bmat := v_value (clusters (s_pars s)).
Definition tv_weights (s : tsample) : list (list Q) := v_value (weights (s_pars s)).
Definition tv_ce (s : tsample) : list effect := v_value (cluster_effect (s_pars s)).
Definition tv_cf (s : tsample) : list (list effect) := map (@v_value effect) (confounding_effects (s_pars s)).
Definition tv_source (s : tsample) : option cube := option_map (@v_value (list (list bool))) (source (s_pars s)).

(** * Sources *)
(** operators.py:620-621, 320-323 -- the entry of the source posterior for one observation. *)
Definition posterior_of (lhs : list lhmat) (wn : list (list (option (list Q)))) (o f : nat) : option (list Q) :=
  match nth f (nth o wn []) None with
  | None => None
  | Some w => M_operators.normalize (mapi (fun c q => (lh_at lhs o f c * q)%Q) w)
  end.
(** operators.py:650-656, 668-683 -- the probabilities of the sources, weights read first. *)
Definition read_probs (s : tsample) : tsample * (nat -> list (option (list Q))) :=
  let '(s, wn) := read_weights s in
  if su_from_prior su then (s, fun o => map (fun f => nth f (nth o wn []) None) (seq 0 (su_nf su)))
  else let '(s, lhs) := read_lhs s in (s, fun o => map (posterior_of lhs wn o) (seq 0 (su_nf su))).
(** operators.py:298-301, 315-323 -- the same in [GibbsSampleSource], likelihoods read first. *)
Definition read_probs_source (s : tsample) : tsample * (nat -> list (option (list Q))) :=
  if su_from_prior su then read_probs s
  else let '(s, lhs) := read_lhs s in
       let '(s, wn) := read_weights s in
       (s, fun o => map (posterior_of lhs wn o) (seq 0 (su_nf su))).

(** preprocessing.py:213-241 -- [sample_categorical] of one observation, as [M_operators.sample_obs]. *)
Definition unit_row (c : nat) : list bool := map (Nat.eqb c) (seq 0 (su_nc su)).
Definition draw_obs (p : option (list Q)) : dist (list bool) :=
  match p with None => ret (unit_row 0) | Some l => mapi (fun c q => (unit_row c, q)) l end.
Definition draw_rows (p : nat -> list (option (list Q))) (objs : list nat) : dist (list (list (list bool))) :=
  prod_dist (map (fun o => prod_dist (map draw_obs (p o))) objs).
(** operators.py:663-664 -- the product of [p[source]] over the objects. *)
Definition prob_rows (p : nat -> list (option (list Q))) (objs : list nat) (src : cube) : option Q :=
  fold_right omult (Some 1%Q) (map (fun o => row_prob (p o) (nth o src [])) objs).

(** operators.py:600-666 -- the resampling of the sources of [objs] at the end of a cluster operator
    ([must]: operators.py:1046, 1094): [s_new] is read before [s]. *)
Definition t_finish (must : bool) (s s_new : tsample) (objs : list nat) (q q_back : option Q) : dist (tsample * tout) :=
  if su_source su then
    match tv_source s with
    | None => ret (s, if must then TFail else TPropose s_new q q_back)
    | Some src =>
        let '(s_new, p) := read_probs s_new in
        let '(s, p_back) := read_probs s in
        bind (draw_rows p objs) (fun rows =>
          let s_new := edited (EdSource (Edit (fun v => set_rows v objs rows))) s_new in
          ret (s, TPropose s_new
                    (omult q (match tv_source s_new with Some v => prob_rows p objs v | None => None end))
                    (omult q_back (prob_rows p_back objs src))))
    end
  else ret (s, TPropose s_new q q_back).

(** [np.random.choice(xs)]; ValueError on an empty range. *)
Definition t_choose (s : tsample) (l : list nat) (f : nat -> dist (tsample * tout)) : dist (tsample * tout) :=
  match l with [] => ret (s, TFail) | _ => bind (uniform l) f end.
(** [np.random.choice(n, p=p)]; ValueError for NaN. *)
Definition t_choose_p (s : tsample) (p : option (list Q)) (f : nat -> dist (tsample * tout)) : dist (tsample * tout) :=
  match p with None => ret (s, TFail) | Some l => bind (mapi (fun o q => (o, q)) l) f end.
Definition t_ids (s : tsample) : list nat := seq 0 (length (tv_clusters s)).
Definition n_obj : nat := length (su_features su).

(** * Cluster operators *)
(** operators.py:999-1054 -- [AlterCluster.grow_cluster]. *)
Definition t_grow_at (s : tsample) (z : nat) : dist (tsample * tout) :=
  let s_new := copied s in
  let occupied := any_cluster n_obj (tv_clusters s) in
  let current := nth z (tv_clusters s) [] in
  if su_max su <=? M_operators.size current then ret (s, TReject) else
  let neighbours := get_neighbours current occupied (su_adj su) in
  bind (flip (su_pconn su)) (fun connected =>
    let candidates := if connected : bool then neighbours else bnot occupied in
    if negb (existsb (fun b => b) candidates) then ret (s, TReject) else
    t_choose s (nonzero candidates) (fun a =>
      let s_new := edited (EdClusters (EditGroup z (upd a (fun _ => true)))) s_new in
      let q := ((1 - su_pconn su) * inv_nat (M_operators.size (bnot occupied)) +
                (if nth a neighbours false then su_pconn su * inv_nat (M_operators.size neighbours) else 0))%Q in
      t_finish true s s_new [a] (Some q) (Some (inv_nat (M_operators.size current + 1))))).
(** operators.py:1056-1102 -- [AlterCluster.shrink_cluster]. *)
Definition t_shrink_at (s : tsample) (z : nat) : dist (tsample * tout) :=
  let s_new := copied s in
  let current := nth z (tv_clusters s) [] in
  if M_operators.size current <=? su_min su then ret (s, TReject) else
  t_choose s (nonzero current) (fun a =>
    let s_new := edited (EdClusters (EditGroup z (upd a (fun _ => false)))) s_new in
    let occupied := any_cluster n_obj (tv_clusters s_new) in
    let back := get_neighbours (nth z (tv_clusters s_new) []) occupied (su_adj su) in
    let q_back := ((1 - su_pconn su) * inv_nat (M_operators.size (bnot occupied)) +
                   (if nth a back false then su_pconn su * inv_nat (M_operators.size back) else 0))%Q in
    t_finish true s s_new [a] (Some (inv_nat (length (nonzero current)))) (Some q_back)).
(** operators.py:568-572 *)
Definition t_alter_cluster (s : tsample) : dist (tsample * tout) :=
  bind (flip (1#2)%Q) (fun b => if b : bool then t_choose s (t_ids s) (t_shrink_at s) else t_choose s (t_ids s) (t_grow_at s)).

(** operators.py:698-760 -- [compute_cluster_posterior] of object [o] from the arrays read. *)
Definition z01_of (W : list (list Q)) (wn : list (list (option (list Q)))) (has : list (list bool)) (o f : nat) : option (list Q) * option (list Q) :=
  let current := nth f (nth o wn []) None in
  let flipped_has := match nth o has [] with b :: r => negb b :: r | [] => [] end in
  let flipped := normalize_row (nth f W []) flipped_has in
  if match flipped_has with b :: _ => b | [] => false end then (current, flipped) else (flipped, current).
Definition lh_with (ce : list effect) (lhs : list lhmat) (i o f c : nat) : Q :=
  match c with 0 => nth f (einsum_row (nth o (su_features su) []) (nth i ce [])) 0%Q | _ => lh_at lhs o f c end.
Definition marginal_of (ce : list effect) (lhs : list lhmat) (i o : nat) (wt : nat -> option (list Q)) : option Q :=
  fold_right omult (Some 1%Q)
    (map (fun f => option_map (fun w => Qsum (mapi (fun c q => (lh_with ce lhs i o f c * q)%Q) w)) (wt f)) (seq 0 (su_nf su))).
Definition member_posterior (W : list (list Q)) (ce : list effect) (lhs : list lhmat) (wn : list (list (option (list Q))))
    (has : list (list bool)) (i o : nat) : option Q :=
  match marginal_of ce lhs i o (fun f => fst (z01_of W wn has o f)), marginal_of ce lhs i o (fun f => snd (z01_of W wn has o f)) with
  | Some m0, Some m1 => if Qeq_bool (m0 + m1) 0 then None else Some (m1 / (m0 + m1))%Q
  | _, _ => None
  end.
(** operators.py:698-742 -- likelihoods, weights and [has_components] of the current sample are read; nothing
    if only the prior is sampled (705-707). *)
Definition read_posterior (s : tsample) (i : nat) : tsample * (nat -> option Q) :=
  if su_from_prior su then (s, fun _ => Some (1#2)%Q) else
  let '(s, lhs) := read_lhs s in
  let '(s, wn) := read_weights s in
  let '(s, has) := read_has s in
  (s, member_posterior (tv_weights s) (tv_ce s) lhs wn has i).

(** operators.py:770-815 -- [AlterClusterGibbsish.grow_cluster]. *)
Definition t_gibbsish_grow_at (s : tsample) (i : nat) : dist (tsample * tout) :=
  let candidates := bnot (any_cluster n_obj (tv_clusters s)) in
  if negb (existsb (fun b => b) candidates) then ret (s, TReject) else
  if M_operators.size (nth i (tv_clusters s) []) =? su_max su then ret (s, TReject) else
  let s_new := copied s in
  let '(s, post) := read_posterior s i in
  match all_def (map post (seq 0 n_obj)) with
  | None => ret (s, TFail)
  | Some post =>
      t_choose_p s (p_add post candidates) (fun a =>
        let s_new := edited (EdClusters (EditGroup i (upd a (fun _ => true)))) s_new in
        t_finish false s s_new [a]
          (option_map (fun l => nth a l 0%Q) (p_add post candidates))
          (option_map (fun l => nth a l 0%Q) (p_remove post (nth i (tv_clusters s_new) []))))
  end.
(** operators.py:817-859 -- [AlterClusterGibbsish.shrink_cluster]. *)
Definition t_gibbsish_shrink_at (s : tsample) (i : nat) : dist (tsample * tout) :=
  let candidates := nth i (tv_clusters s) [] in
  if M_operators.size candidates =? su_min su then ret (s, TReject) else
  let s_new := copied s in
  let '(s, post) := read_posterior s i in
  match all_def (map post (seq 0 n_obj)) with
  | None => ret (s, TFail)
  | Some post =>
      t_choose_p s (p_remove post candidates) (fun a =>
        let s_new := edited (EdClusters (EditGroup i (upd a (fun _ => false)))) s_new in
        t_finish false s s_new [a]
          (option_map (fun l => nth a l 0%Q) (p_remove post candidates))
          (option_map (fun l => nth a l 0%Q) (p_add post (bnot (any_cluster n_obj (tv_clusters s_new))))))
  end.
Definition t_gibbsish (s : tsample) : dist (tsample * tout) :=
  bind (flip (1#2)%Q) (fun b => if b : bool then t_choose s (t_ids s) (t_gibbsish_shrink_at s) else t_choose s (t_ids s) (t_gibbsish_grow_at s)).

(** operators.py:582-584 *)
Definition t_available (s : tsample) (i : nat) : list bool :=
  map2 (fun (occ own : bool) => negb occ || own) (any_cluster n_obj (tv_clusters s)) (nth i (tv_clusters s) []).
(** operators.py:862-914 -- [AlterClusterGibbsish2._propose]. *)
Definition t_gibbsish2_at (s : tsample) (i : nat) : dist (tsample * tout) :=
  let s_new := copied s in
  let old := nth i (tv_clusters s) [] in
  let avail := t_available s i in
  let '(s, post) := read_posterior s i in
  let ps := gather avail (map post (seq 0 n_obj)) in
  bind (prod_dist (map draw_member ps)) (fun new =>
    if negb ((su_min su <=? M_operators.size new) && (M_operators.size new <=? su_max su)) then ret (s, TReject) else
    if forallb (fun b => b) (map2 Bool.eqb new (gather avail old)) then ret (s, TReject) else
    let q := fold_right omult (Some 1%Q) (map2 member_prob ps new) in
    let q_back := fold_right omult (Some 1%Q) (map2 member_prob ps (gather avail old)) in
    let s_new := edited (EdClusters (EditGroup i (fun c => scatter avail c new))) s_new in
    let changed := nonzero (map2 xorb old (nth i (tv_clusters s_new) [])) in
    t_finish false s s_new changed q q_back).
Definition t_gibbsish2 (s : tsample) : dist (tsample * tout) := t_choose s (t_ids s) (t_gibbsish2_at s).

(** operators.py:284-313 -- [GibbsSampleSource._propose]: the sample itself is changed. *)
Definition t_gibbs_source (s : tsample) : dist (tsample * tout) :=
  match tv_source s with
  | None => ret (s, TFail)
  | Some _ =>
      let '(s, p) := read_probs_source s in
      let objs := seq 0 n_obj in
      bind (draw_rows p objs) (fun rows =>
        let s := edited (EdSource (Edit (fun v => set_rows v objs rows))) s in
        ret (s, TPropose s (Some 0%Q) (Some 1%Q)))
  end.

(** * Operators on weights and effects *)
(** [scipy.stats.beta(a, b).logpdf(x)] and [dirichlet_logpdf(x, alpha)] (util.py:31). *)
Variable bpdf : R -> R -> R -> R.
Variable dpdf : list Q -> list Q -> R.

(** operators.py:337-373, 375-418 -- [GibbsSampleWeights._propose] with the components [i1], [i2], the draws
    [a2] of the relative weights and the uniform draws [u]; [None] is the AttributeError without sources. *)
Definition t_gibbs_weights (i1 i2 : nat) (a2 : list Q) (u : list R) (s : tsample) : option tsample :=
  let w := tv_weights s in
  let '(s, wn_old) := read_weights s in
  match tv_source s with
  | None => None
  | Some src =>
      let '(s, has) := read_has s in
      let w_new := new_weights i1 i2 a2 w in
      let s := edited (EdWeights (SetValue w_new)) s in
      let '(s, wn_new) := read_weights s in
      let p_accept f := xsub (xadd (xsub (source_lh_by_feature src wn_new f) (source_lh_by_feature src wn_old f))
                                   (Fin (beta_logpdf bpdf has src i1 i2 f (relative_weight i1 i2 (nth f w [])))))
                             (Fin (beta_logpdf bpdf has src i1 i2 f (nth f a2 0%Q))) in
      Some (edited (EdWeights (SetValue (mapi (fun f w_f => if below_exp (nth f u 0%R) (p_accept f) then nth f w_new [] else w_f) w))) s)
  end.
(** An edit of the effect of group [g] (state.py:114-123). *)
Definition ed_effect (which : option nat) (g : nat) (h : effect -> effect) : edit :=
  match which with None => EdCE (EditGroup g h) | Some k => EdConf k (EditGroup g h) end.
Definition t_effect (which : option nat) (g : nat) (s : tsample) : effect :=
  match which with None => nth g (tv_ce s) [] | Some k => nth g (nth k (tv_cf s) []) [] end.
(** operators.py:463-471, 535-544 -- the Gibbs operators on effects (the draws are arguments). *)
Definition t_gibbs_effect (which : option nat) (g : nat) (draws : list (list Q)) (s : tsample) : tsample :=
  edited (ed_effect which g (fun e => gibbs_effect (su_applicable su) e draws)) s.
(** operators.py:144-177 -- [AlterWeights._propose].  After a draw that is not finite the old values are
    written into the copy (130-135; rounding in [w / w.sum() * w.sum()] is not modelled). *)
Definition t_alter_weights (f i j : nat) (draw : option (list Q)) (s : tsample) : result tsample :=
  match alter_pair dpdf prec_weights (nth f (tv_weights s) []) i j draw with
  | Some (row, q, qb) => RCopy (edited (EdWeights (Edit (upd f (fun _ => row)))) (copied s)) (Fin q) (Fin qb)
  | None => RCopy (edited (EdWeights (Edit (fun w => w))) (copied s)) (Fin 0) NInf
  end.
(** operators.py:188-220, 231-266 -- [AlterClusterEffect], [AlterConfoundingEffects]. *)
Definition t_alter_effect (which : option nat) (g f i j : nat) (draw : option (list Q)) (s : tsample) : result tsample :=
  match alter_pair dpdf (prec_effect which) (nth f (t_effect which g s) []) i j draw with
  | Some (row, q, qb) => RCopy (edited (ed_effect which g (upd f (fun _ => row))) (copied s)) (Fin q) (Fin qb)
  | None => RCopy (edited (ed_effect which g (fun e => e)) (copied s)) (Fin 0) NInf
  end.

(** * One proposal *)
(** The random choices of one call of an operator: the number of the result among those with positive
    probability, or the random numbers of an operator on weights or effects. *)
Inductive choice :=
| CNth (n : nat)
| CAlterWeights (f i j : nat) (draw : option (list Q))
| CGibbsWeights (i j : nat) (a2 : list Q) (u : list R)
| CAlterEffect (g f i j : nat) (draw : option (list Q))
| CGibbsEffect (g : nat) (draws : list (list Q)).

(** What a cluster or source operator returns to [step]; [None] is an exception. *)
Definition t_result (gibbs : bool) (o : tsample * tout) : option (tsample * result tsample) :=
  match o with
  | (s, TReject) => Some (s, RReject tsample)
  | (s, TPropose s' q qb) => Some (s, if gibbs then RGibbs s' else RCopy s' (log_q q) (log_q qb))
  | (_, TFail) => None
  end.
Definition nth_result (gibbs : bool) (d : dist (tsample * tout)) (n : nat) : option (tsample * result tsample) :=
  match nth_error (possible d) n with Some (o, _) => t_result gibbs o | None => None end.

(** operators.py:83-87, mcmc.py:334-337 -- the call of an operator: the current sample afterwards (its cache
    may have been filled) and the result; [None] is an exception or no such choice. *)
Definition t_propose (k : kind) (ch : choice) (s : tsample) : option (tsample * result tsample) :=
  match k, ch with
  | KAlterCluster, CNth n => nth_result false (t_alter_cluster s) n
  | KGibbsish, CNth n => nth_result false (t_gibbsish s) n
  | KGibbsish2, CNth n => nth_result false (t_gibbsish2 s) n
  | KSource, CNth n => nth_result true (t_gibbs_source s) n
  | KGibbsWeights, CGibbsWeights i j a2 u => option_map (fun s' => (s', RGibbs s')) (t_gibbs_weights i j a2 u s)
  | KGibbsEffect which, CGibbsEffect g draws => let s' := t_gibbs_effect which g draws s in Some (s', RGibbs s')
  | KAlterWeights, CAlterWeights f i j draw => Some (s, t_alter_weights f i j draw s)
  | KAlterEffect which, CAlterEffect g f i j draw => Some (s, t_alter_effect which g f i j draw s)
  | _, _ => None
  end.

(** * Evaluation with the consistency assertions *)
(** The ways a run can end. *)
Inductive ext (A : Type) := Done (a : A) | Raised (e : error) | Assertion | Failed.
Arguments Raised {A}. Arguments Assertion {A}. Arguments Failed {A}.
Definition ebind {A B} (x : ext A) (f : A -> ext B) : ext B :=
  match x with Done a => f a | Raised e => Raised e | Assertion => Assertion | Failed => Failed end.

(** mcmc.py:174, 196 -- is the evaluation of a sample with this [i_step] checked?  [checks] is
    [CHECK_CACHING] (mcmc.py:105). *)
Definition due (checks : bool) (i_step : nat) : bool := checks && (i_step <? 1000) && (i_step mod 10 =? 0).
(** mcmc.py:180-201 -- [MCMC.likelihood]. *)
Definition t_likelihood (checks : bool) (i_step : nat) (s : tsample) : ext (tsample * xf) :=
  if su_from_prior su then Done (s, Fin 0) else
  let '(s, obs) := likelihood M true s in
  if due checks i_step then
    let '(s, obs_stable) := likelihood M false s in
    if xeqb (log_sum obs) (log_sum obs_stable) then Done (s, log_sum obs) else Assertion
  else Done (s, log_sum obs).
(** mcmc.py:163-178 -- [MCMC.prior]. *)
Definition t_prior (checks : bool) (i_step : nat) (s : tsample) : ext (tsample * xf) :=
  let '(s, t) := prior M true s in
  if due checks i_step then
    let '(s, t_stable) := prior M false s in
    if xeqb (log_prior t) (log_prior t_stable) then Done (s, log_prior t) else Assertion
  else Done (s, log_prior t).
(** mcmc.py:340-343, 241-242 -- likelihood and prior. *)
Definition t_eval (checks : bool) (i_step : nat) (s : tsample) : ext (tsample * xf * xf) :=
  ebind (t_likelihood checks i_step s) (fun '(s, ll) =>
  ebind (t_prior checks i_step s) (fun '(s, p) => Done (s, ll, p))).

(** * The initial sample *)
(** sbayes_sampling.py:325-349 -- the sample object, its sources and the final clearing of the cache; [junk]
    and [junk_lhs] are uninitialised arrays. *)
Definition t_initial (cl : bmat) (p : params) (junk : cube) (junk_lhs : list lhmat) : dist tsample :=
  if su_source su then
    let s := cleared (new_sample (Fin 0) (Fin 1) M cl (p_weights p) (p_ce p) (p_cf p) (Some junk) junk_lhs) in
    bind (t_gibbs_source s) (fun '(s, out) =>
      match out with
      | TPropose s' _ _ => match tv_source s' with
                           | Some v => ret (cleared (edited (EdSource (SetValue v)) s'))
                           | None => []
                           end
      | _ => []
      end)
  else ret (cleared (new_sample (Fin 0) (Fin 1) M cl (p_weights p) (p_ce p) (p_cf p) None junk_lhs)).
(** sbayes_sampling.py:303-349 -- [generate_initial_sample]. *)
Definition t_generate_initial_sample (prev : option fsample) (rnd : nat -> nat) (fuel : nat) (junk : cube) (junk_lhs : list lhmat) : option (dist tsample) :=
  match generate_initial_clusters (su_n su) (su_adj su) (su_init su) (su_k su) rnd (match prev with Some p => fs_clusters p | None => [] end) fuel with
  | Some (Clusters_ok cl) =>
      match generate_initial_weights su prev, generate_initial_cluster_effect su prev cl, generate_initial_confounding_effects su prev with
      | Some w, Some ce, Some cf => Some (t_initial cl {| p_weights := w; p_ce := ce; p_cf := cf |} junk junk_lhs)
      | _, _, _ => None
      end
  | _ => None
  end.
End Tracked.
Arguments Raised {A}. Arguments Assertion {A}. Arguments Failed {A}.

(** * The loop, for any representation [X] of samples *)
Section Run.
Variable X : Type.
(** The call of the operator with the given number. *)
Variable propose : nat -> choice -> X -> option (X * result X).
(** The evaluation of a sample with the given [i_step]. *)
Variable eval : nat -> X -> ext (X * xf * xf).

(** The random choices of one step of one chain: operator, its choices, the uniform draw. *)
Record tdraw := { td_op : nat; td_choice : choice; td_u : R }.

(** mcmc.py:321-364 -- [step] of one chain.  [propose] returns the current sample after the call; after a
    rejection it stays (or is the evaluated candidate, if that is the same object). *)
Definition t_step (ch : chain X) (d : tdraw) : ext (chain X * bool) :=
  let s := c_obj ch in
  match propose (td_op d) (td_choice d) (content s) with
  | None => Failed
  | Some (current, r) =>
      ebind (eval (i_step s) (res_content current r)) (fun '(x, ll, pr) =>
        let candidate := {| content := x; i_step := i_step s; last_lh := Some ll; last_prior := Some pr |} in
        match accept ll (c_ll ch) pr (c_prior ch) (res_q r) (res_q_back r) (td_u d) with
        | Err e => Raised e
        | Ok true => Done ({| c_obj := candidate; c_ll := ll; c_prior := pr |}, true)
        | Ok false =>
            Done ({| c_obj := if res_aliased r then candidate
                              else {| content := current; i_step := i_step s; last_lh := last_lh s; last_prior := last_prior s |};
                     c_ll := c_ll ch; c_prior := c_prior ch |}, false)
        end)
  end.

(** mcmc.py:283-286 -- all chains. *)
Fixpoint t_step_chains (i : nat) (draws : nat -> tdraw) (c : nat) (chs : list (chain X)) (st : stats) : ext (list (chain X) * stats) :=
  match chs with
  | [] => Done ([], st)
  | ch :: rest =>
      ebind (t_step ch (draws c)) (fun '(ch', acc) =>
      ebind (t_step_chains i draws (Datatypes.S c) rest (register (td_op (draws c)) acc st)) (fun '(rest', st') =>
      Done (set_i_step i ch' :: rest', st')))
  end.
Definition t_step_all (i : nat) (draws : nat -> tdraw) (sm : sampler X) : ext (sampler X) :=
  ebind (t_step_chains i draws 0 (chains sm) (statistics sm)) (fun '(chs, st) => Done {| chains := chs; statistics := st |}).

(** mcmc.py:235-242 -- the evaluation of the initial samples (new objects, [i_step = 0], state.py:402). *)
Fixpoint t_init_chains (ss : list X) : ext (list (chain X)) :=
  match ss with
  | [] => Done []
  | s :: rest =>
      ebind (eval 0 s) (fun '(x, ll, pr) =>
      ebind (t_init_chains rest) (fun chs =>
      Done ({| c_obj := {| content := x; i_step := 0; last_lh := Some ll; last_prior := Some pr |}; c_ll := ll; c_prior := pr |} :: chs)))
  end.
Definition t_init (n_ops : nat) (ss : list X) : ext (sampler X) :=
  ebind (t_init_chains ss) (fun chs =>
  Done {| chains := chs; statistics := {| st_ops := repeat (0, 0) n_ops; st_total := 0; op_ops := repeat (0, 0) n_ops |} |}).

(** mcmc.py:280-301 -- the sampling loop, as [M_mcmc.loop]. *)
Fixpoint t_loop (n_steps n_samples : nat) (draws : nat -> nat -> tdraw) (todo i : nat) (sm : sampler X)
    (log : list (nat * obj X)) (last : option (obj X)) : ext (sampler X * list (nat * obj X) * option (obj X)) :=
  match todo with
  | 0 => Done (sm, log, last)
  | Datatypes.S todo' =>
      ebind (t_step_all i (draws i) sm) (fun sm' =>
      let first := option_map (@c_obj X) (nth_error (chains sm') 0) in
      let sps := steps_per_sample n_steps n_samples in
      let log' := if i mod sps =? 0 then match first with Some o => log ++ [(i / sps, o)] | None => log end else log in
      if n_steps - 1 =? 0 then Raised ZeroDivision else
      let last' := if (i mod (n_steps - 1) =? 0) && negb (i =? 0) then first else last in
      t_loop n_steps n_samples draws todo' (Datatypes.S i) sm' log' last')
  end.
(** mcmc.py:222-309 with [warm_up=False]. *)
Definition t_generate_samples (n_ops : nat) (ss : list X) (n_steps n_samples : nat) (draws : nat -> nat -> tdraw) :=
  ebind (t_init n_ops ss) (fun sm => t_loop n_steps n_samples draws n_steps 0 sm [] None).
(** mcmc.py:248-265 -- the warm-up. *)
Fixpoint t_warm_loop (draws : nat -> nat -> tdraw) (todo i : nat) (sm : sampler X) : ext (sampler X) :=
  match todo with
  | 0 => Done sm
  | Datatypes.S todo' => ebind (t_step_all i (draws i) sm) (fun sm' => t_warm_loop draws todo' (Datatypes.S i) sm')
  end.
Definition t_warm_up (n_ops : nat) (ss : list X) (warm_up_steps : nat) (draws : nat -> nat -> tdraw) : ext (option (obj X) * sampler X) :=
  ebind (t_init n_ops ss) (fun sm => ebind (t_warm_loop draws warm_up_steps 0 sm) (fun sm => Done (best_sample (chains sm), sm))).
End Run.

(** The run of the sampler on sample objects: operator numbers are positions in [operators su]. *)
Definition tracked_propose (su : setup) (M : mdl xf) (bpdf : R -> R -> R -> R) (dpdf : list Q -> list Q -> R)
    (op : nat) (ch : choice) (s : tsample) : option (tsample * result tsample) :=
  match nth_error (operators su) op with Some k => t_propose su M bpdf dpdf k ch s | None => None end.
Definition tracked_run su M bpdf dpdf (checks : bool) :=
  t_generate_samples (tracked_propose su M bpdf dpdf) (t_eval su M checks) (length (operators su)).
Definition tracked_warm_up su M bpdf dpdf (checks : bool) :=
  t_warm_up (tracked_propose su M bpdf dpdf) (t_eval su M checks) (length (operators su)).
