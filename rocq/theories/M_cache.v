(** Model of the cached evaluation of likelihood and prior: [CalculationNode], [HasComponents],
    [ModelCache] and [Sample] of [sbayes/sampling/state.py], [Likelihood.__call__] of
    [sbayes/model/likelihood.py] and the [__call__] methods of [sbayes/model/prior.py].

    Parameter objects are the values [pval] with the operations [spec_pop] of [S_state]; that the
    objects of state.py (shared arrays, copy on write) behave like that is theorem C01/C02.

    The numerical prior densities are arbitrary functions [size_fn] ... [src_fn] into an arbitrary
    type [V] (they are modelled elsewhere); what is modelled here is when they are evaluated, on
    what, and what is stored.  [cached_group_versions] is only kept for the nodes where
    [what_changed] reads it. *)
From Verif Require Export M_state S_state M_model.
Set Implicit Arguments.

(** state.py:157-175.  [n_ver = None] is the version -1 that differs from every tuple
    (state.py:221-223).  Nested version tuples (state.py:237-240) are flattened; all nodes have a
    fixed shape of version, so comparison is not affected. *)
Record node (T : Type) := { n_val : T; n_ver : option (list Z); n_cgv : list (list Z) }.

(** state.py:177-178 -- [is_outdated]. *)
Definition is_outdated {T} (n : node T) (version : list Z) : bool :=
  match n_ver n with
  | None => true
  | Some v => if list_eq_dec Z.eq_dec v version then false else true
  end.

(** state.py:203-212 -- [update_value] and [set_up_to_date]. *)
Definition update_value {T} (x : T) (version : list Z) (cgv : list (list Z)) : node T :=
  {| n_val := x; n_ver := Some version; n_cgv := cgv |}.

(** state.py:254-259 -- a group version array of -1 of the given length. *)
Definition outdated_group_version (n : nat) : list Z := repeat (-1)%Z n.

(** state.py:248-252 -- [clear]. *)
Definition clear_node {T} (n : node T) : node T :=
  {| n_val := n_val n; n_ver := None; n_cgv := map (fun l => outdated_group_version (length l)) (n_cgv n) |}.

(** state.py:184-197 -- [what_changed] for one input: the numbers of the groups whose cached version
    differs (all groups without caching). *)
Definition what_changed (caching : bool) (cached current : list Z) : list nat :=
  filter (fun g => negb caching || negb (nth g cached (-1) =? nth g current (-1))%Z) (seq 0 (length current)).

(** state.py:184-186 -- [what_changed] for a list of inputs: the union, here in increasing order
    (a Python set; its iteration order is irrelevant for disjoint groups). *)
Definition union_changed (n : nat) (a b : list nat) : list nat :=
  filter (fun g => existsb (Nat.eqb g) a || existsb (Nat.eqb g) b) (seq 0 n).

Section Cache.
Variable V : Type.
Variable v_zero v_one : V.

(** The data and the prior densities of one model (likelihood.py:40-44, prior.py:33-62). *)
Record mdl := {
  m_features : cube;                                   (* objects x features x states *)
  m_nfeatures : nat;
  m_conf : list bmat;                                  (* group assignment of every confounder *)
  size_fn : bmat -> V;                                 (* prior.py:395-414 *)
  geo_fn : bmat -> V;                                  (* prior.py:511-528 *)
  weights_fn : list (list Q) -> V;                     (* prior.py:324-334 *)
  ce_fn : list effect -> V;                            (* prior.py:280-289 *)
  conf_fn : nat -> nat -> effect -> V;                 (* prior.py:230-240 for confounder, group *)
  src_fn : list (option Q) -> V                        (* prior.py:362 *)
}.
Variable M : mdl.

(** state.py:383-417 -- the parameters of a sample. *)
Record pars := {
  clusters : pval (list bool);             (* groups = clusters *)
  weights : pval (list Q);                 (* rows = features *)
  cluster_effect : pval effect;            (* groups = clusters *)
  confounding_effects : list (pval effect);(* per confounder; groups *)
  source : option (pval (list (list bool)))(* rows = objects *)
}.

(** state.py:294-347 -- [ModelCache]. *)
Record cache := {
  k_comp : node (list lhmat);
  k_wn : node (list (list (option (list Q))));
  k_hc : node (list (list bool));
  k_size : node V; k_geo : node V; k_wp : node V; k_cep : node V;
  k_confp : list (node (list V));
  k_srcp : node V
}.

Record sample := { s_pars : pars; s_cache : cache }.

(** ** versions (state.py:237-240 with the inputs of state.py:329-347) *)
Definition ver_comp (p : pars) : list Z :=
  v_version (clusters p) :: v_version (cluster_effect p) :: map (@v_version effect) (confounding_effects p).
Definition ver_hc (p : pars) : list Z := [v_version (clusters p)].
Definition ver_wn (p : pars) : list Z := [v_version (clusters p); v_version (weights p)].
Definition ver_size (p : pars) : list Z := [v_version (clusters p)].
(** state.py:317: no input is ever added to the geo_prior node. *)
Definition ver_geo (p : pars) : list Z := [].
Definition ver_wp (p : pars) : list Z := [v_version (weights p)].
Definition ver_cep (p : pars) : list Z := [v_version (cluster_effect p)].
Definition ver_conf (e : pval effect) : list Z := [v_version e].
Definition ver_srcp (p : pars) : list Z :=
  ver_wn p ++ match source p with None => [] | Some s => [v_version s] end.
(** The group versions of the inputs of [component_likelihoods]. *)
Definition gvs_comp (p : pars) : list (list Z) :=
  v_gv (clusters p) :: v_gv (cluster_effect p) :: map (@v_gv effect) (confounding_effects p).

(** ** construction and copying *)

Definition n_objects : nat := length (m_features M).

(** state.py:225-231 -- a node after [add_input]: outdated, all groups outdated. *)
Definition fresh_node {T} (x : T) (gv : list (list Z)) : node T :=
  {| n_val := x; n_ver := None; n_cgv := map (fun l => outdated_group_version (length l)) gv |}.

(** state.py:274-282 -- [HasComponents.__init__]. *)
Definition new_hc (p : pars) : node (list (list bool)) :=
  fresh_node (has_components (v_value (clusters p)) (m_conf M) n_objects) [].

(** state.py:310-347 -- [ModelCache.__init__]; [junk] is the uninitialised content of [np.empty]. *)
Definition new_cache (p : pars) (junk : list lhmat) : cache :=
  {| k_comp := fresh_node junk (gvs_comp p);
     k_wn := fresh_node [] [];
     k_hc := new_hc p;
     k_size := fresh_node v_zero []; k_geo := fresh_node v_zero [];
     k_wp := fresh_node v_zero []; k_cep := fresh_node v_zero [];
     k_confp := map (fun e => fresh_node (repeat v_one (length (v_value e))) [v_gv e]) (confounding_effects p);
     k_srcp := fresh_node v_zero [] |}.

(** state.py:419-438 -- [Sample.from_numpy_arrays]: all versions are 0. *)
Definition new_pval {A} (v : list A) : pval A :=
  {| v_value := v; v_version := 0; v_gv := repeat 0%Z (length v) |}.
Definition new_sample (cl : bmat) (w : list (list Q)) (ce : list effect) (cf : list (list effect))
    (src : option cube) (junk : list lhmat) : sample :=
  let p := {| clusters := new_pval cl; weights := new_pval w; cluster_effect := new_pval ce;
              confounding_effects := map (@new_pval effect) cf;
              source := option_map (@new_pval (list (list bool))) src |} in
  {| s_pars := p; s_cache := new_cache p junk |}.

(** state.py:368-380, 440-459 -- [Sample.copy]: the new cache takes over the listed nodes;
    [has_components] and [source_prior] start anew. *)
Definition copy_sample (s : sample) : sample :=
  let p := s_pars s in let k := s_cache s in
  {| s_pars := p;
     s_cache := {| k_comp := k_comp k; k_wn := k_wn k; k_hc := new_hc p;
                   k_size := k_size k; k_geo := k_geo k; k_wp := k_wp k; k_cep := k_cep k;
                   k_confp := k_confp k; k_srcp := fresh_node v_zero [] |} |}.

(** state.py:357-366 -- [ModelCache.clear]; source_prior is not cleared. *)
Definition clear_cache (k : cache) : cache :=
  {| k_comp := clear_node (k_comp k); k_wn := clear_node (k_wn k); k_hc := clear_node (k_hc k);
     k_size := clear_node (k_size k); k_geo := clear_node (k_geo k); k_wp := clear_node (k_wp k);
     k_cep := clear_node (k_cep k); k_confp := map clear_node (k_confp k); k_srcp := k_srcp k |}.

(** ** likelihood *)

(** likelihood.py:121-128 -- the update of the components of the confounders. *)
Fixpoint update_confs (caching : bool) (groups : list bmat) (effs : list (pval effect))
    (cgvs : list (list Z)) (outs : list lhmat) : list lhmat :=
  match groups, effs, cgvs, outs with
  | g :: gs, e :: es, c :: cs, out :: os =>
      compute_component_likelihood (m_nfeatures M) (m_features M) (v_value e) g
        (what_changed caching c (v_gv e)) out
      :: update_confs caching gs es cs os
  | _, _, _, _ => outs
  end.

(** likelihood.py:82-143 -- [update_component_likelihoods]. *)
Definition update_component_likelihoods (caching : bool) (p : pars) (n : node (list lhmat)) : node (list lhmat) :=
  if caching && negb (is_outdated n (ver_comp p)) then n
  else
    match n_val n, n_cgv n with
    | out0 :: outs, c_cl :: c_ce :: c_cf =>
        let changed := union_changed (length (v_value (clusters p)))
                         (what_changed caching c_ce (v_gv (cluster_effect p)))
                         (what_changed caching c_cl (v_gv (clusters p))) in
        let new0 := compute_component_likelihood (m_nfeatures M) (m_features M)
                      (v_value (cluster_effect p)) (v_value (clusters p)) changed out0 in
        let news := update_confs caching (m_conf M) (confounding_effects p) c_cf outs in
        update_value (map (set_na (m_features M)) (new0 :: news)) (ver_comp p) (gvs_comp p)
    | _, _ => n
    end.

(** state.py:284-291 -- [HasComponents.value]: column 0 is recomputed if the clusters changed. *)
Definition hc_value (p : pars) (n : node (list (list bool))) : node (list (list bool)) :=
  if is_outdated n (ver_hc p) then
    {| n_val := mapi (fun o row => match row with
                                   | [] => []
                                   | _ :: r => any_group (v_value (clusters p)) o :: r
                                   end) (n_val n);
       n_ver := Some (ver_hc p); n_cgv := n_cgv n |}
  else n.

(** likelihood.py:162-177 -- [update_weights]. *)
Definition update_weights (caching : bool) (p : pars) (k : cache) : cache :=
  if negb caching || is_outdated (k_wn k) (ver_wn p) then
    let hc := hc_value p (k_hc k) in
    {| k_comp := k_comp k;
       k_wn := update_value (normalize_weights (v_value (weights p)) (n_val hc)) (ver_wn p) [];
       k_hc := hc; k_size := k_size k; k_geo := k_geo k; k_wp := k_wp k; k_cep := k_cep k;
       k_confp := k_confp k; k_srcp := k_srcp k |}
  else k.

Definition set_comp (k : cache) (n : node (list lhmat)) : cache :=
  {| k_comp := n; k_wn := k_wn k; k_hc := k_hc k; k_size := k_size k; k_geo := k_geo k;
     k_wp := k_wp k; k_cep := k_cep k; k_confp := k_confp k; k_srcp := k_srcp k |}.

(** likelihood.py:46-67 -- [Likelihood.__call__]; returns the likelihoods of the observations
    ([sample.observation_lhs]); the log-likelihood is the sum of their logarithms. *)
Definition likelihood (caching : bool) (s : sample) : sample * list (option Q) :=
  let p := s_pars s in
  let k0 := if caching then s_cache s else clear_cache (s_cache s) in
  let k1 := set_comp k0 (update_component_likelihoods caching p (k_comp k0)) in
  let k2 := update_weights caching p k1 in
  ({| s_pars := p; s_cache := k2 |},
   get_observation_lhs (n_val (k_comp k2)) (n_val (k_wn k2)) (option_map (@v_value _) (source p))).

(** ** prior *)

(** prior.py:391-417, 507-531 -- evaluate a scalar node from [x] unless cached. *)
Definition eval_node (caching : bool) (n : node V) (version : list Z) (x : V) : node V :=
  if caching && negb (is_outdated n version) then n else update_value x version (n_cgv n).

(** prior.py:222-242 -- one confounder: only the changed groups are recomputed. *)
Definition eval_conf (caching : bool) (c : nat) (e : pval effect) (n : node (list V)) : node (list V) :=
  if caching && negb (is_outdated n (ver_conf e)) then n
  else
    let changed := what_changed caching (nth 0 (n_cgv n) []) (v_gv e) in
    update_value (mapi (fun g x => if existsb (Nat.eqb g) changed then
                                     match nth_error (v_value e) g with
                                     | Some row => conf_fn M c g row
                                     | None => x
                                     end
                                   else x) (n_val n))
      (ver_conf e) [v_gv e].

Fixpoint eval_confs (caching : bool) (c : nat) (es : list (pval effect)) (ns : list (node (list V)))
    : list (node (list V)) :=
  match es, ns with
  | e :: es', n :: ns' => eval_conf caching c e n :: eval_confs caching (S c) es' ns'
  | _, _ => ns
  end.

(** The summands of the log-prior (prior.py:71-88). *)
Record prior_terms := {
  t_size : V; t_geo : V; t_weights : V; t_ce : V; t_conf : list (list V); t_src : option V }.

(** prior.py:64-88 -- [Prior.__call__]. The weights and cluster-effect priors ignore [caching]
    (prior.py:276, 320); the source prior calls [update_weights] with caching (prior.py:359). *)
Definition prior (caching : bool) (s : sample) : sample * prior_terms :=
  let p := s_pars s in let k := s_cache s in
  let n_size := eval_node caching (k_size k) (ver_size p) (size_fn M (v_value (clusters p))) in
  let n_geo := eval_node caching (k_geo k) (ver_geo p) (geo_fn M (v_value (clusters p))) in
  let n_wp := eval_node true (k_wp k) (ver_wp p) (weights_fn M (v_value (weights p))) in
  let n_cep := eval_node true (k_cep k) (ver_cep p) (ce_fn M (v_value (cluster_effect p))) in
  let n_confp := eval_confs caching 0 (confounding_effects p) (k_confp k) in
  let k1 := {| k_comp := k_comp k; k_wn := k_wn k; k_hc := k_hc k; k_size := n_size; k_geo := n_geo;
               k_wp := n_wp; k_cep := n_cep; k_confp := n_confp; k_srcp := k_srcp k |} in
  let k2 :=
    match source p with
    | None => k1
    | Some src =>
        if caching && negb (is_outdated (k_srcp k1) (ver_srcp p)) then k1
        else
          let k1' := update_weights true p k1 in
          {| k_comp := k_comp k1'; k_wn := k_wn k1'; k_hc := k_hc k1'; k_size := k_size k1';
             k_geo := k_geo k1'; k_wp := k_wp k1'; k_cep := k_cep k1'; k_confp := k_confp k1';
             k_srcp := update_value (src_fn M (source_weights (n_val (k_wn k1')) (v_value src)))
                         (ver_srcp p) [] |}
    end in
  ({| s_pars := p; s_cache := k2 |},
   {| t_size := n_val n_size; t_geo := n_val n_geo; t_weights := n_val n_wp; t_ce := n_val n_cep;
      t_conf := map (@n_val _) n_confp;
      t_src := match source p with None => None | Some _ => Some (n_val (k_srcp k2)) end |}).

(** ** histories over any number of samples *)

Definition with_clusters (o : pop (list bool)) (p : pars) : pars :=
  {| clusters := spec_pop o (clusters p); weights := weights p; cluster_effect := cluster_effect p;
     confounding_effects := confounding_effects p; source := source p |}.
Definition with_weights (o : pop (list Q)) (p : pars) : pars :=
  {| clusters := clusters p; weights := spec_pop o (weights p); cluster_effect := cluster_effect p;
     confounding_effects := confounding_effects p; source := source p |}.
Definition with_ce (o : pop effect) (p : pars) : pars :=
  {| clusters := clusters p; weights := weights p; cluster_effect := spec_pop o (cluster_effect p);
     confounding_effects := confounding_effects p; source := source p |}.
Definition with_conf (c : nat) (o : pop effect) (p : pars) : pars :=
  {| clusters := clusters p; weights := weights p; cluster_effect := cluster_effect p;
     confounding_effects := upd c (spec_pop o) (confounding_effects p); source := source p |}.
Definition with_source (o : pop (list (list bool))) (p : pars) : pars :=
  {| clusters := clusters p; weights := weights p; cluster_effect := cluster_effect p;
     confounding_effects := confounding_effects p; source := option_map (spec_pop o) (source p) |}.

(** One modification of one parameter of a sample. *)
Inductive edit :=
| EdClusters (o : pop (list bool)) | EdWeights (o : pop (list Q)) | EdCE (o : pop effect)
| EdConf (c : nat) (o : pop effect) | EdSource (o : pop (list (list bool))).

Definition do_edit_pars (e : edit) (p : pars) : pars :=
  match e with
  | EdClusters o => with_clusters o p
  | EdWeights o => with_weights o p
  | EdCE o => with_ce o p
  | EdConf c o => with_conf c o p
  | EdSource o => with_source o p
  end.

Inductive op :=
| ONew (cl : bmat) (w : list (list Q)) (ce : list effect) (cf : list (list effect)) (src : option cube)
       (junk : list lhmat)
| OCopy (i : nat)
| OEdit (i : nat) (e : edit)
| OLik (i : nat) (caching : bool)
| OPrior (i : nat) (caching : bool)
| OClear (i : nat).                       (* Sample.everything_changed, state.py:461-462 *)

Definition do_op (ss : list sample) (o : op) : list sample :=
  match o with
  | ONew cl w ce cf src junk => ss ++ [new_sample cl w ce cf src junk]
  | OCopy i => match nth_error ss i with Some s => ss ++ [copy_sample s] | None => ss end
  | OEdit i e => upd i (fun s => {| s_pars := do_edit_pars e (s_pars s); s_cache := s_cache s |}) ss
  | OLik i c => upd i (fun s => fst (likelihood c s)) ss
  | OPrior i c => upd i (fun s => fst (prior c s)) ss
  | OClear i => upd i (fun s => {| s_pars := s_pars s; s_cache := clear_cache (s_cache s) |}) ss
  end.

End Cache.
