(** Lemmas on the template of a configuration file: the settings an accepted file may contain, and completed templates. *)
From Coq Require Import QArith Lia.
From Verif Require Import L_config L_text.
From Verif Require Import M_settings S_settings L_settings M_template S_template L_template.
Open Scope nat_scope.
Set Implicit Arguments.
Unset Strict Implicit.

(** ** Shapes *)
Inductive shape := Leafy | Any | Node (l : list (string * shape)).
Inductive fits : shape -> json -> Prop :=
| fits_leaf x : fits Leafy (Leaf x)
| fits_any x : fits Any x
| fits_node l d : (forall k y, In (k, y) d -> exists n s, k = s_ n /\ In (n, s) l /\ fits s y) -> fits (Node l) (Dict d).
Inductive in_shape : shape -> list str -> Prop :=
| in_nil s : in_shape s []
| in_any p : in_shape Any p
| in_node l n s p : In (n, s) l -> in_shape s p -> in_shape (Node l) (s_ n :: p).
Lemma fits_path p : forall sh x, fits sh x -> has_path x p -> in_shape sh p.
Proof.
  induction p as [|k p IH]; intros sh x F H; [constructor|]. destruct F as [x|x|l d F]; [destruct H|constructor|].
  cbn in H. destruct H as (y & I & H). destruct (F _ _ I) as (n & s & -> & J & Fy). econstructor; eauto.
Qed.
Definition dirichlet_shape : shape := Node [("type", Leafy); ("file", Leafy); ("parameters", Any)]%string.
Definition geo_shape : shape := Node [("type", Leafy); ("costs", Leafy); ("aggregation", Leafy); ("probability_function", Leafy); ("rate", Leafy); ("inflection_point", Leafy); ("skeleton", Leafy)]%string.
Definition size_shape : shape := Node [("type", Leafy); ("min", Leafy); ("max", Leafy)]%string.
Definition prior_shape : shape := Node [("confounding_effects", Any); ("cluster_effect", dirichlet_shape); ("geo", geo_shape); ("objects_per_cluster", size_shape); ("weights", dirichlet_shape)]%string.
Definition model_shape : shape := Node [("clusters", Leafy); ("confounders", Any); ("sample_source", Leafy); ("prior", prior_shape)]%string.
Definition operators_shape : shape := Node [("clusters", Leafy); ("weights", Leafy); ("cluster_effect", Leafy); ("confounding_effects", Leafy); ("source", Any)]%string.
Definition warmup_shape : shape := Node [("warmup_steps", Leafy); ("warmup_chains", Leafy)]%string.
Definition mcmc_shape : shape := Node [("steps", Leafy); ("samples", Leafy); ("runs", Leafy); ("sample_from_prior", Leafy); ("init_objects_per_cluster", Leafy); ("grow_to_adjacent", Leafy);
  ("operators", operators_shape); ("warmup", warmup_shape)]%string.
Definition data_shape : shape := Node [("features", Leafy); ("feature_states", Leafy); ("projection", Leafy)]%string.
Definition results_shape : shape := Node [("path", Leafy); ("log_file", Leafy)]%string.
Definition config_shape : shape := Node [("data", data_shape); ("model", model_shape); ("mcmc", mcmc_shape); ("results", results_shape)]%string.

Lemma only_In keys (d : dict value) k y : only keys d = true -> In (k, y) d -> exists n, k = s_ n /\ In n keys.
Proof.
  unfold only. rewrite forallb_forall. intros H I. specialize (H _ I). cbn [fst] in H. apply (proj1 (mem_In _ _)) in H. apply in_map_iff in H. destruct H as (n & <- & J). eauto.
Qed.
Lemma optional_entry A (v : json -> option A) x k d z y : wf (Dict d) -> In (k, y) d -> optional v x k d = Some z -> v y = Some z.
Proof. intros W I H. unfold optional in H. rewrite (get_NoDup (wf_NoDup W) I) in H. exact H. Qed.
Lemma required_entry A (v : json -> option A) k d z y : wf (Dict d) -> In (k, y) d -> required v k d = Some z -> v y = Some z.
Proof. intros W I H. unfold required in H. rewrite (get_NoDup (wf_NoDup W) I) in H. exact H. Qed.

Section Fits.
Variables (to_int : json -> option Z) (to_float : json -> option Q) (to_bool : json -> option bool) (to_str : json -> option str).
Variables (is_file make_dir : dir -> bool) (base : dir).
Hypothesis NC : forall e, to_int (Dict e) = None /\ to_float (Dict e) = None /\ to_bool (Dict e) = None /\ to_str (Dict e) = None.
Notation parse := (parse_config to_int to_float to_bool to_str is_file make_dir base).

Lemma leafy A (v : json -> option A) y z : (forall e, v (Dict e) = None) -> v y = Some z -> fits Leafy y.
Proof. intros N H. destruct y as [x|e]; [constructor|]. rewrite N in H. discriminate. Qed.
Lemma n_int e : to_int (Dict e) = None. Proof. apply NC. Qed.
Lemma n_float e : to_float (Dict e) = None. Proof. apply NC. Qed.
Lemma n_bool e : to_bool (Dict e) = None. Proof. apply NC. Qed.
Lemma n_str e : to_str (Dict e) = None. Proof. apply NC. Qed.
Ltac no_dict := let e := fresh in intros e; unfold nullable, positive_int, positive_float, nonneg_float, unit_float, costs, file_path, directory_path, fix_path, parse_clusters;
  rewrite ?n_int, ?n_float, ?n_bool, ?n_str; reflexivity.
(** The value at the key is in shape. *)
Ltac entry := match goal with
  | W : wf (Dict ?d), I : In (?k, ?y) ?d, H : optional _ _ ?k ?d = Some _ |- _ => apply (optional_entry W I) in H
  | W : wf (Dict ?d), I : In (?k, ?y) ?d, H : required _ ?k ?d = Some _ |- _ => apply (required_entry W I) in H
  end.
Ltac leaf_entry := entry; match goal with H : ?v ?y = Some _ |- fits Leafy ?y => refine (leafy _ H); no_dict end.
Ltac keys O := let k := fresh "k" in let y := fresh "y" in let I := fresh "I" in let n := fresh "n" in let J := fresh "J" in
  constructor; intros k y I; destruct (only_In O I) as (n & -> & J); exists n; cbn [In] in J;
  repeat (destruct J as [<-|J]); [..|destruct J]; eexists; (split; [reflexivity|split; [cbn [In]; tauto|]]).

Lemma data_fits d r : wf (Dict d) -> parse_data to_str is_file base d = Some r -> fits data_shape (Dict d).
Proof. intros W H. unfold parse_data in H. open_parse H. keys B; leaf_entry. Qed.
Lemma results_fits d r : wf (Dict d) -> parse_results to_bool make_dir base d = Some r -> fits results_shape (Dict d).
Proof. intros W H. unfold parse_results in H. open_parse H. keys B; leaf_entry. Qed.
Lemma size_fits d r : wf (Dict d) -> parse_size to_int d = Some r -> fits size_shape (Dict d).
Proof. intros W H. unfold parse_size in H. open_parse H. keys B; leaf_entry. Qed.
Lemma geo_fits d r : wf (Dict d) -> parse_geo to_float is_file base d = Some r -> fits geo_shape (Dict d).
Proof. intros W H. unfold parse_geo in H. open_parse H. apply andb_true_iff in B. destruct B as (B & _). keys B; leaf_entry. Qed.
Lemma dirichlet_fits d r : wf (Dict d) -> parse_dirichlet is_file base d = Some r -> fits dirichlet_shape (Dict d).
Proof. intros W H. unfold parse_dirichlet in H. open_parse H. keys B0; try leaf_entry. constructor. Qed.
Lemma operators_fits d r : wf (Dict d) -> parse_operators to_float d = Some r -> fits operators_shape (Dict d).
Proof. intros W H. unfold parse_operators in H. open_parse H. keys B; try leaf_entry. constructor. Qed.
Lemma warmup_fits d r : wf (Dict d) -> parse_warmup to_int d = Some r -> fits warmup_shape (Dict d).
Proof. intros W H. unfold parse_warmup in H. open_parse H. keys B; leaf_entry. Qed.
Lemma sub_fits A (v : dict value -> option A) sh y z : (forall d r, wf (Dict d) -> v d = Some r -> fits sh (Dict d)) -> wf y -> section v y = Some z -> fits sh y.
Proof. intros F W H. destruct y as [|d]; [discriminate|]. eapply F; eauto. Qed.
Lemma wf_entry d k (y : json) : wf (Dict d) -> In (k, y) d -> wf y.
Proof. intros W I. inversion W as [|? _ Hw]; subst. eapply Hw; eauto. Qed.
Ltac sub_entry L := entry; match goal with W : wf (Dict ?d), I : In (_, ?y) ?d, H : section _ ?y = Some _ |- _ => exact (sub_fits L (wf_entry W I) H) end.
Lemma prior_fits d r : wf (Dict d) -> parse_prior to_int to_float is_file base d = Some r -> fits prior_shape (Dict d).
Proof. intros W H. unfold parse_prior in H. open_parse H. keys B; [constructor|sub_entry dirichlet_fits|sub_entry geo_fits|sub_entry size_fits|sub_entry dirichlet_fits]. Qed.
Lemma model_fits d r : wf (Dict d) -> parse_model to_int to_float to_bool to_str is_file base d = Some r -> fits model_shape (Dict d).
Proof. intros W H. unfold parse_model in H. open_parse H. keys B0; [leaf_entry|constructor|leaf_entry|sub_entry prior_fits]. Qed.
Lemma mcmc_fits d r : wf (Dict d) -> parse_mcmc to_int to_float to_bool d = Some r -> fits mcmc_shape (Dict d).
Proof.
  intros W H. unfold parse_mcmc in H. open_parse H. apply andb_true_iff in B. destruct B as (B & _).
  keys B; [leaf_entry|leaf_entry|leaf_entry|leaf_entry|leaf_entry|leaf_entry|sub_entry operators_fits|sub_entry warmup_fits].
Qed.

Lemma put_other k v (d : dict value) k' y : k' <> k -> In (k', y) d -> In (k', y) (put k v d).
Proof.
  intros N. induction d as [|(a, b) d IH]; cbn; [tauto|]. destruct (str_eqb k a) eqn:E; intros [H|H]; try (right; auto; fail); try (left; exact H).
  apply str_eqb_eq in E. congruence.
Qed.
Lemma wf_put k v (d : dict value) : wf (Dict d) -> wf v -> wf (Dict (put k v d)).
Proof.
  intros W V. assert (ND := wf_NoDup W). assert (E : forall a y, In (a, y) (put k v d) -> In (a, y) d \/ y = v).
  { clear. induction d as [|(a, b) d IH]; cbn; intros x y H.
    - destruct H as [H|[]]. injection H as -> ->. auto.
    - destruct (str_eqb k a); destruct H as [H|H]; auto; [injection H as -> ->; auto|]. destruct (IH _ _ H); auto. }
  constructor.
  - clear - ND. induction d as [|(a, b) d IH]; cbn in *; [repeat constructor; auto|]. inversion ND as [|? ? N1 N2]; subst. destruct (str_eqb k a) eqn:F; cbn.
    + apply str_eqb_eq in F. subst a. constructor; auto.
    + constructor; auto. intros I. apply N1. clear - I F. induction d as [|(x, y) d IH]; cbn in *.
      * destruct I as [->|[]]. rewrite str_eqb_refl in F. discriminate.
      * destruct (str_eqb k x) eqn:G; cbn in *; [apply str_eqb_eq in G; subst x|]; tauto.
  - intros a y I. destruct (E a y I) as [J| ->]; auto. eapply wf_entry; eauto.
Qed.
Lemma fits_put l n s v d : fits (Node l) (Dict (put (s_ n) v d)) -> In (n, s) l -> (forall y, In (s_ n, y) d -> fits s y) -> fits (Node l) (Dict d).
Proof.
  intros F I S. constructor. intros k y J. destruct (list_eq_dec ascii_dec k (s_ n)) as [->|N]; [exists n, s; auto|].
  inversion F as [| |? ? H]; subst. apply (H k y). apply put_other; auto.
Qed.
Lemma config_fits d c : wf (Dict d) -> parse d = Some c -> fits config_shape (Dict d).
Proof.
  intros W H. unfold parse_config in H.
  assert (K : forall d0 c0, wf (Dict d0) -> (data <- required (section (parse_data to_str is_file base)) (s_ "data") d0;;
      model <- required (section (parse_model to_int to_float to_bool to_str is_file base)) (s_ "model") d0;;
      mcmc <- required (section (parse_mcmc to_int to_float to_bool)) (s_ "mcmc") d0;;
      results <- optional (section (parse_results to_bool make_dir base)) (default_results base) (s_ "results") d0;;
      guard (only ["data"; "model"; "mcmc"; "results"]%string d0) (Some {| s_data := data; s_model := model; s_mcmc := mcmc; s_results := results |})) = Some c0 ->
      fits config_shape (Dict d0)).
  { intros d0 c0 W0 H0. open_parse H0. keys B; [sub_entry data_fits|sub_entry model_fits|sub_entry mcmc_fits|sub_entry results_fits]. }
  destruct (validate_operators d) as [d'|] eqn:V; [|discriminate]. unfold validate_operators in V.
  destruct (get (s_ "model") d) as [[|m]|] eqn:GM; try discriminate. destruct (get (s_ "sample_source") m) as [src|]; [|discriminate].
  destruct (truthy src); [injection V as <-; eapply K; eauto|].
  destruct (get (s_ "mcmc") d) as [[|mc]|] eqn:GC; try discriminate. destruct (get (s_ "operators") mc) as [[|o]|] eqn:GO; try discriminate.
  set (o' := put (s_ "source") (Leaf (Num 0)) o) in *. set (mc' := put (s_ "operators") (Dict o') mc) in *. injection V as <-.
  assert (WC : wf (Dict mc)) by (eapply wf_get; eauto). assert (WO : wf (Dict o)) by (eapply wf_get; eauto).
  assert (WO' : wf (Dict o')) by (apply wf_put; [auto|constructor]). assert (WC' : wf (Dict mc')) by (apply wf_put; auto).
  assert (W' : wf (Dict (put (s_ "mcmc") (Dict mc') d))) by (apply wf_put; auto).
  assert (FO : fits mcmc_shape (Dict mc')).
  { assert (H' := H). open_parse H'. match goal with E : required (section (parse_mcmc _ _ _)) _ _ = Some _ |- _ => rename E into EM end.
    unfold required in EM. rewrite get_put_same in EM. eapply mcmc_fits; eauto. }
  apply (fits_put (n := "mcmc") (s := mcmc_shape) (v := Dict mc')); [eapply K; eauto|cbn [In]; tauto|].
  intros y I. rewrite (get_NoDup (wf_NoDup W) I) in GC. injection GC as ->.
  apply (fits_put (n := "operators") (s := operators_shape) (v := Dict o')); [exact FO|cbn [In]; tauto|].
  intros z J. rewrite (get_NoDup (wf_NoDup WC) J) in GO. injection GO as ->.
  apply (fits_put (n := "source") (s := Any) (v := Leaf (Num 0))); [|cbn [In]; tauto|intros; constructor].
  inversion FO as [| |? ? F]; subst. destruct (F (s_ "operators") (Dict o')) as (n & s & E & IN & Fo).
  { apply get_In. apply get_put_same. }
  cbn [In] in IN. repeat (destruct IN as [IN|IN]; [injection IN as <- <-; try discriminate E; exact Fo|]). destruct IN.
Qed.
End Fits.

(** ** The places of the template *)
Lemma node_inv l p : in_shape (Node l) p -> p = [] \/ exists n s q, p = s_ n :: q /\ In (n, s) l /\ in_shape s q.
Proof. intros H. inversion H; subst; [auto|right; do 3 eexists; eauto]. Qed.
Lemma leafy_inv p : in_shape Leafy p -> p = [].
Proof. intros H. inversion H; auto. Qed.
Lemma has_node k x (d : dict value) p : In (k, x) d -> has_path x p -> has_path (Dict d) (k :: p).
Proof. cbn. eauto. Qed.
Ltac find_in := first [left; reflexivity | right; find_in].
Ltac found := first [exact I | eapply has_node; [find_in|found]].
Ltac finish := first [left; found | right; left; unfold named_by_user; eexists; (left; reflexivity) || (right; left; reflexivity) || (right; right; left; reflexivity) || (right; right; right; reflexivity) | right; right; eexists; reflexivity].
Ltac go := match goal with
  | H : in_shape Leafy ?p |- _ => apply leafy_inv in H; subst p; finish
  | H : in_shape Any ?p |- _ => finish
  | H : in_shape _ ?p |- _ => apply node_inv in H; let n := fresh "n" in let s := fresh "s" in let q := fresh "q" in let IN := fresh "IN" in
      destruct H as [->|(n & s & q & -> & IN & H)]; [finish|cbn [In] in IN; repeat (destruct IN as [IN|IN]; [injection IN as <- <-; go|]); destruct IN]
  end.
Lemma names_complete t p : generate_template true true = Some t -> in_shape config_shape p ->
  has_path (Dict t) p \/ named_by_user p \/ exists r, p = s_ "mcmc" :: s_ "operators" :: s_ "source" :: r.
Proof.
  intros G. assert (t = t_config (fun _ => txt "<REQUIRED>") (fun _ => Left_as_it_is)) as -> by (clear -G; vm_compute in G |- *; congruence). clear G.
  intros H. go.
Qed.
(** The optional places *)
Fixpoint leaves (t : json) : list (list str * value) :=
  match t with
  | Leaf x => [([], x)]
  | Dict d => (fix entries (l : dict value) := match l with [] => [] | (k, y) :: r => map (fun a => (k :: fst a, snd a)) (leaves y) ++ entries r end) d
  end.
Lemma lookup_leaves p : forall t x, lookup p t = Some (Leaf x) -> In (p, x) (leaves t).
Proof.
  induction p as [|k p IH]; intros t x H.
  - destruct t as [y|]; [|discriminate]. injection H as ->. left. reflexivity.
  - destruct t as [y|d]; [destruct (lookup_leaf_some H); discriminate|]. rewrite lookup_cons in H. cbn [leaves]. induction d as [|(a, b) d IHd]; [discriminate|].
    apply in_or_app. cbn [get] in H. destruct (str_eqb k a) eqn:E.
    + left. apply str_eqb_eq in E. subst a. apply in_map_iff. exists (p, x). auto.
    + right. apply IHd, H.
Qed.
Lemma optional_places t p : generate_template true true = Some t -> lookup p (Dict t) = Some (Leaf (Str (s_ "<OPTIONAL>"))) ->
  In p (map path_ [["model"; "prior"; "cluster_effect"; "file"]; ["model"; "prior"; "cluster_effect"; "parameters"]; ["model"; "prior"; "geo"; "rate"];
    ["model"; "prior"; "geo"; "inflection_point"]; ["model"; "prior"; "weights"; "file"]; ["model"; "prior"; "weights"; "parameters"]]%string).
Proof.
  intros G. assert (t = t_config (fun _ => txt "<REQUIRED>") (fun _ => Left_as_it_is)) as -> by (clear -G; vm_compute in G |- *; congruence). clear G.
  intros L. apply lookup_leaves in L. vm_compute in L. vm_compute.
  repeat (destruct L as [L|L]; [try discriminate L; injection L as <-; tauto|]). destruct L.
Qed.

(** ** Accepted answers *)
Lemma answers_accepted to_int to_float to_bool to_str is_file make_dir base answer features states type (effects : list (str * list str)) :
  answer (map s_ ["data"; "features"]%string) = Leaf (Str features) -> is_file (fix_relative_path features base) = true ->
  answer (map s_ ["data"; "feature_states"]%string) = Leaf (Str states) -> is_file (fix_relative_path states base) = true ->
  answer (map s_ ["model"; "prior"; "objects_per_cluster"; "type"]%string) = Leaf (Str type) -> In type (map s_ ["uniform_area"; "uniform_size"; "quadratic"]%string) ->
  answer (map s_ ["model"; "prior"; "confounding_effects"]%string) = Dict (map (fun kv => (fst kv, Dict (map (fun g => (g, Dict [(s_ "type", Leaf (Str (s_ "uniform")))])) (snd kv)))) effects) ->
  conversions to_int to_float to_bool to_str ->
  exists c, parse_config to_int to_float to_bool to_str is_file make_dir base (answers_only answer) = Some c /\
    s_data c = {| t_features := fix_relative_path features base; t_states := fix_relative_path states base; t_projection := s_ "epsg:4326" |} /\
    m_clusters (s_model c) = One 1 /\ m_confounders (s_model c) = [] /\ m_source (s_model c) = true /\
    p_size (m_prior (s_model c)) = {| z_type := type; z_min := 2; z_max := 10000 |} /\ g_type (p_geo (m_prior (s_model c))) = s_ "uniform" /\
    map (fun kv => (fst kv, map fst (snd kv))) (p_confounding (m_prior (s_model c))) = effects /\ build_prior (m_prior (s_model c)) = true /\
    c_steps (s_mcmc c) = 1000000%Z /\ c_samples (s_mcmc c) = 1000%Z /\ c_runs (s_mcmc c) = 1%Z /\ c_from_prior (s_mcmc c) = false /\
    r_path (s_results c) = base ++ [s_ "results"].
Proof.
  intros A1 F1 A2 F2 A3 IT A4 CV.
  set (u := {| d_type := s_ "uniform"; d_file := None; d_parameters := None |}).
  assert (PE : items (section (items (section (parse_dirichlet is_file base)))) (map (fun kv => (fst kv, Dict (map (fun g => (g, Dict [(s_ "type", Leaf (Str (s_ "uniform")))])) (snd kv)))) effects)
    = Some (map (fun kv => (fst kv, map (fun g => (g, u)) (snd kv))) effects)).
  { clear A4. unfold items. apply all_some_Forall2. rewrite map_map. induction effects as [|(k, gs) effects IH]; [constructor|]. cbn [map fst snd]. constructor; [|apply IH].
    cbn [section]. assert (items (section (parse_dirichlet is_file base)) (map (fun g => (g, Dict [(s_ "type", Leaf (Str (s_ "uniform")))])) gs) = Some (map (fun g => (g, u)) gs)) as E.
    { unfold items. apply all_some_Forall2. rewrite map_map. induction gs as [|g gs IHg]; constructor; auto. }
    unfold items in E. rewrite E. reflexivity. }
  assert (S : parse_size to_int [(s_ "type", Leaf (Str type))] = Some {| z_type := type; z_min := 2; z_max := 10000 |}).
  { destruct IT as [<-|[<-|[<-|[]]]]; reflexivity. }
  remember (map (fun kv => (fst kv, Dict (map (fun g => (g, Dict [(s_ "type", Leaf (Str (s_ "uniform")))])) (snd kv)))) effects) as ee eqn:EE. clear EE.
  set (pr := {| p_confounding := map (fun kv => (fst kv, map (fun g => (g, u)) (snd kv))) effects; p_cluster := u;
      p_geo := {| g_type := s_ "uniform"; g_costs := None; g_aggregation := s_ "mean"; g_function := s_ "exponential"; g_rate := None; g_inflection := None; g_skeleton := s_ "mst" |};
      p_size := {| z_type := type; z_min := 2; z_max := 10000 |}; p_weights := u |}).
  set (dp := [(s_ "confounding_effects", Dict ee); (s_ "cluster_effect", Dict []); (s_ "geo", Dict []); (s_ "objects_per_cluster", Dict [(s_ "type", Leaf (Str type))]); (s_ "weights", Dict [])]).
  assert (P : parse_prior to_int to_float is_file base dp = Some pr).
  { subst dp. unfold parse_prior, required. cbn -[items parse_size]. rewrite PE. cbn -[parse_size] in S. rewrite S. reflexivity. }
  set (dm := [(s_ "confounders", Dict []); (s_ "sample_source", Leaf (Bool true)); (s_ "prior", Dict dp)]).
  assert (M : parse_model to_int to_float to_bool to_str is_file base dm = Some {| m_clusters := One 1; m_confounders := []; m_source := true; m_prior := pr |}).
  { subst dm. unfold parse_model, required, optional. cbn -[parse_prior]. rewrite (bools CV), P. reflexivity. }
  set (dd := [(s_ "features", Leaf (Str features)); (s_ "feature_states", Leaf (Str states))]).
  assert (D : parse_data to_str is_file base dd = Some {| t_features := fix_relative_path features base; t_states := fix_relative_path states base; t_projection := s_ "epsg:4326" |}).
  { subst dd. unfold parse_data, required, optional. cbn -[fix_relative_path]. rewrite F1, F2. reflexivity. }
  assert (E : answers_only answer = [(s_ "data", Dict dd); (s_ "model", Dict dm); (s_ "mcmc", Dict [])]) by (unfold answers_only; rewrite A1, A2, A3, A4; reflexivity).
  rewrite E. clearbody dd. assert (V : validate_operators [(s_ "data", Dict dd); (s_ "model", Dict dm); (s_ "mcmc", Dict [])] = Some [(s_ "data", Dict dd); (s_ "model", Dict dm); (s_ "mcmc", Dict [])]) by reflexivity.
  unfold parse_config. rewrite V. clear V E. clearbody dm. unfold required. cbn -[parse_data parse_model parse_mcmc default_results pr fix_relative_path]. rewrite D, M.
  eexists. split; [reflexivity|]. cbn -[pr fix_relative_path]. conj; try reflexivity.
  - cbn. rewrite map_map. cbn [fst snd]. transitivity (map (fun x : str * list str => x) effects); [|apply map_id]. apply map_ext. intros (k, gs). cbn [fst snd]. f_equal. rewrite map_map. apply map_id.
  - unfold build_prior. apply andb_true_iff. split; [reflexivity|]. apply forallb_forall. intros kv K. apply in_map_iff in K. destruct K as ((k, gs) & <- & _). cbn [fst snd]. apply forallb_forall. intros x I. apply in_map_iff in I. destruct I as (g & <- & _). reflexivity.
Qed.
