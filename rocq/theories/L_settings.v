(** Lemmas on the settings of an analysis. *)
From Coq Require Import QArith Lqa.
From Verif Require Import L_cache L_config L_text.
From Verif Require Import M_settings S_settings.
Set Implicit Arguments.
Unset Strict Implicit.
Open Scope nat_scope.

(** ** Lists of options, keys *)
Lemma all_some_Forall2 A (l : list (option A)) r : all_some l = Some r <-> Forall2 (fun x y => x = Some y) l r.
Proof.
  revert r. induction l as [|[x|] l IH]; intros r; simpl; split; intros H.
  - injection H as <-. constructor.
  - inversion_clear H. reflexivity.
  - destruct (all_some l) as [r'|]; [|discriminate]. injection H as <-. constructor; auto. apply IH. reflexivity.
  - inversion_clear H as [|? y ? r' E F]. injection E as ->. apply IH in F. rewrite F. reflexivity.
  - discriminate.
  - inversion_clear H as [|? y ? r' E F]. discriminate.
Qed.
Lemma items_spec A (v : json -> option A) d r : items v d = Some r -> Forall2 (fun kv kx => fst kv = fst kx /\ v (snd kv) = Some (snd kx)) d r.
Proof.
  unfold items. intros H. apply all_some_Forall2 in H. revert r H. induction d as [|(k, x) d IH]; intros r H; inversion_clear H as [|? y ? r' E F]; constructor; auto.
  cbn [fst snd] in *. destruct (v x) as [a|]; [|discriminate]. injection E as <-. auto.
Qed.
Lemma items_get A (v : json -> option A) d r k x : items v d = Some r -> get k d = Some x -> exists y, at_key r k y /\ v x = Some y.
Proof.
  intros H. apply items_spec in H. induction H as [|(k', x') (k'', y') d r (E & V) F IH]; [discriminate|]. cbn [fst snd] in *. subst k''. cbn [get].
  destruct (str_eqb k k') eqn:E; intros G.
  - injection G as ->. apply str_eqb_eq in E. subst k'. exists y'. split; auto. exists [], r. auto.
  - destruct (IH G) as (y & (a & b & -> & N) & Y). exists y. split; auto. exists ((k', y') :: a), b. split; auto. simpl. intros [X|X]; auto.
    subst k'. rewrite str_eqb_refl in E. discriminate.
Qed.
Lemma items_In A (v : json -> option A) d r k y : items v d = Some r -> In (k, y) r -> exists x, In (k, x) d /\ v x = Some y.
Proof.
  intros H I. apply items_spec in H. induction H as [|(k', x') (k'', y') d r (E & V) F IH]; [destruct I|]. cbn [fst snd] in *. subst k''.
  destruct I as [I|I].
  - injection I as -> ->. exists x'. split; auto. left; auto.
  - destruct (IH I) as (x & X & Y). exists x. split; auto. right; auto.
Qed.
Lemma items_keys A (v : json -> option A) d r : items v d = Some r -> map fst r = map fst d.
Proof. intros H. apply items_spec in H. induction H as [|? ? ? ? (E & _) F IH]; auto. cbn [map]. f_equal; [symmetry; exact E|exact IH]. Qed.

Ltac open_parse H := repeat match type of H with
  | (match ?e with Some _ => _ | None => None end) = Some _ => let E := fresh "E" in destruct e eqn:E; [|discriminate H]
  | guard ?b _ = Some _ => let E := fresh "B" in unfold guard in H at 1; destruct b eqn:E; [|discriminate H]
  end.
(** ** Adding defaults *)
Lemma forallb_eq A (f g : A -> bool) l : (forall x, f x = g x) -> forallb f l = forallb g l.
Proof. intros H. induction l; simpl; congruence. Qed.
Lemma only_put keys k v (d : dict value) : mem k (map s_ keys) = true -> only keys (put k v d) = only keys d.
Proof.
  intros M. unfold only. induction d as [|(k', v') d IH]; cbn [put forallb fst]; [rewrite M; reflexivity|].
  destruct (str_eqb k k') eqn:E; cbn [forallb fst]; [reflexivity|rewrite IH; reflexivity].
Qed.
Lemma only_defaults keys (e : dict value) : Forall (fun kv => mem (fst kv) (map s_ keys) = true) e -> forall d, only keys (set_defaults d e) = only keys d.
Proof.
  unfold set_defaults. intros F d. rewrite sd_unfold. revert d. induction F as [|(k, v) e M F IH]; intros d; cbn [sd_loop]; auto. rewrite IH. unfold sd_step.
  destruct (get k d) as [[x|c]|]; auto; [destruct (is_dict v); auto|]; apply only_put, M.
Qed.
(** [d] with defaults from [e], apart from key [k0] *)
Definition filled (k0 : str) (e d d' : dict value) : Prop := forall k, k <> k0 -> get k d' = sd_merge (get k d) (get k e).
Lemma filled_defaults k0 e d : NoDup (map fst e) -> filled k0 e d (set_defaults d e).
Proof. intros H k _. apply set_defaults_get, H. Qed.
Lemma filled_put k0 e d d' v v' : filled k0 e d d' -> filled k0 e (put k0 v d) (put k0 v' d').
Proof. intros F k N. rewrite !get_put, (str_eqb_neq N). apply F, N. Qed.
Lemma optional_ext A (v : json -> option A) x k d d' : get k d' = get k d -> optional v x k d' = optional v x k d.
Proof. unfold optional. intros ->. reflexivity. Qed.
Lemma required_ext A (v : json -> option A) k d d' : get k d' = get k d -> required v k d' = required v k d.
Proof. unfold required. intros ->. reflexivity. Qed.
(** A field with a default *)
Lemma field_leaf A (v : json -> option A) x k0 e d d' k y : filled k0 e d d' -> k <> k0 -> get k e = Some (Leaf y) -> v (Leaf y) = Some x -> optional v x k d' = optional v x k d.
Proof. intros F N G V. unfold optional. rewrite (F k N), G. destruct (get k d) as [[|]|]; cbn [sd_merge]; auto. Qed.
Lemma field_section A (v : dict value -> option A) x k0 e d d' k c : filled k0 e d d' -> k <> k0 -> get k e = Some (Dict c) -> v c = Some x -> (forall a, v (set_defaults a c) = v a) ->
  optional (section v) x k d' = optional (section v) x k d.
Proof. intros F N G V W. unfold optional. rewrite (F k N), G. destruct (get k d) as [[|]|]; cbn [sd_merge section]; auto. Qed.
Lemma needed_section A (v : dict value -> option A) k0 e d d' k c : filled k0 e d d' -> k <> k0 -> get k e = Some (Dict c) -> (forall a, v (set_defaults a c) = v a) -> v c = None \/ (exists x, get k d = Some x) ->
  required (section v) k d' = required (section v) k d.
Proof. intros F N G W O. unfold required. rewrite (F k N), G. destruct (get k d) as [[|]|]; cbn [sd_merge section]; auto. destruct O as [O|(x & O)]; [auto|discriminate]. Qed.
Lemma field_none A (v : json -> option A) x k0 e d d' k : filled k0 e d d' -> k <> k0 -> get k e = None -> optional v x k d' = optional v x k d.
Proof. intros F N G. apply optional_ext. rewrite (F k N), G. destruct (get k d) as [[|]|]; auto. Qed.
Lemma needed_none A (v : json -> option A) k0 e d d' k : filled k0 e d d' -> k <> k0 -> get k e = None -> required v k d' = required v k d.
Proof. intros F N G. apply required_ext. rewrite (F k N), G. destruct (get k d) as [[|]|]; auto. Qed.

Section Parse.
Variable to_int : json -> option Z.
Variable to_float : json -> option Q.
Variable to_bool : json -> option bool.
Variable to_str : json -> option str.
Variable is_file : dir -> bool.
Variable make_dir : dir -> bool.
Variable base : dir.
Hypothesis CV : conversions to_int to_float to_bool to_str.
Let parse_config := parse_config to_int to_float to_bool to_str is_file make_dir base.

(** ** Fields of accepted configurations *)
Lemma positive_int_inv x n : positive_int to_int x = Some n -> (0 < n)%Z.
Proof. unfold positive_int. intros H. open_parse H. destruct (Z.ltb_spec 0 z); [congruence|discriminate]. Qed.
Lemma optional_positive k d n0 n : (0 < n0)%Z -> optional (positive_int to_int) n0 k d = Some n -> (0 < n)%Z.
Proof. unfold optional. destruct (get k d); [intros _; apply positive_int_inv|congruence]. Qed.
Lemma optional_nonneg k d q0 q : (0 <= q0)%Q -> optional (nonneg_float to_float) q0 k d = Some q -> (0 <= q)%Q.
Proof.
  unfold optional. destruct (get k d) as [x|]; [intros _|congruence]. unfold nonneg_float. intros H. open_parse H.
  destruct (Qle_bool 0 q1) eqn:L; [|discriminate]. injection H as <-. apply Qle_bool_iff, L.
Qed.
Lemma positive_float_inv x q : positive_float to_float x = Some q -> (0 < q)%Q.
Proof.
  unfold positive_float. intros H. open_parse H. destruct (Qle_bool q0 0) eqn:L; [discriminate|]. injection H as <-.
  apply Qnot_le_lt. intros X. apply Qle_bool_iff in X. congruence.
Qed.
Lemma file_path_inv x p : file_path is_file base x = Some p -> is_file p = true.
Proof. unfold file_path. intros H. open_parse H. destruct (is_file d) eqn:F; congruence. Qed.
Lemma nullable_inv A (v : json -> option A) k d y : optional (nullable v) None k d = Some (Some y) -> exists x, get k d = Some x /\ v x = Some y.
Proof.
  unfold optional. destruct (get k d) as [x|]; [|congruence]. intros H. exists x. split; auto. unfold nullable in H. destruct x as [[]|]; try congruence;
  destruct (v _); simpl in H; congruence.
Qed.
Lemma nullable_none A (v : json -> option A) k d : optional (nullable v) None k d = Some None -> is_none (get k d) = true.
Proof.
  unfold optional. destruct (get k d) as [x|]; auto. unfold nullable. destruct x as [[]|]; auto; destruct (v _); discriminate.
Qed.
Lemma one_of_inv names x s : one_of names x = Some s -> x = Leaf (Str s) /\ In s (map s_ names).
Proof. unfold one_of. destruct x as [[]|]; try discriminate. destruct (mem s0 (map s_ names)) eqn:E; [|discriminate]. intros H. injection H as <-. split; auto. apply mem_In, E. Qed.
Lemma dirichlet_inv d x : parse_dirichlet is_file base d = Some x ->
  (forall p, d_file x = Some p -> is_file p = true) /\
  (d_type x = s_ "uniform" \/ d_type x = s_ "dirichlet" /\ (d_file x <> None \/ d_parameters x <> None)).
Proof.
  unfold parse_dirichlet. intros H. open_parse H. injection H as <-. cbn [d_file d_type d_parameters]. split.
  - intros p ->. apply nullable_inv in E0. destruct E0 as (x & _ & P). apply (file_path_inv P).
  - unfold optional in E. destruct (get (s_ "type") d) as [t|] eqn:T; [|left; congruence]. apply one_of_inv in E. destruct E as (-> & I).
    destruct I as [I|[I|[]]]; [left; auto|right]. split; auto. destruct o as [p|]; [left; congruence|]. destruct o0 as [ps|]; [right; congruence|]. exfalso.
    apply nullable_none in E0. apply nullable_none in E1. rewrite E0, E1 in B. cbn [is_text] in B. rewrite <- I in B. vm_compute in B. discriminate.
Qed.
Lemma section_inv A (v : dict value -> option A) x y : section v x = Some y -> exists d, x = Dict d /\ v d = Some y.
Proof. destruct x as [|d]; [discriminate|]. simpl. eauto. Qed.
Lemma required_inv A (v : json -> option A) k d y : required v k d = Some y -> exists x, get k d = Some x /\ v x = Some y.
Proof. unfold required. destruct (get k d); [eauto|discriminate]. Qed.
Lemma required_section A (v : dict value -> option A) k d y : required (section v) k d = Some y -> exists c, get k d = Some (Dict c) /\ v c = Some y.
Proof. intros H. apply required_inv in H. destruct H as (x & G & S). apply section_inv in S. destruct S as (c & -> & V). eauto. Qed.
Lemma geo_inv d g : parse_geo to_float is_file base d = Some g ->
  (forall q, g_rate g = Some q -> (0 < q)%Q) /\ (g_type g = s_ "cost_based" -> g_rate g <> None) /\ (forall p, g_costs g = Some p -> is_file p = true).
Proof.
  unfold parse_geo. intros H. open_parse H. injection H as <-. cbn [g_rate g_type g_costs]. conj.
  - intros q ->. apply nullable_inv in E3. destruct E3 as (x & _ & P). apply (positive_float_inv P).
  - intros -> ->. rewrite str_eqb_refl, andb_comm in B. discriminate.
  - intros p ->. unfold optional in E0. destruct (get (s_ "costs") d) as [x|]; [|discriminate]. unfold costs in E0.
    destruct (file_path is_file base x) as [p'|] eqn:F; [|destruct (is_text _ _); discriminate]. injection E0 as ->. apply (file_path_inv F).
Qed.
Lemma size_inv d z : parse_size to_int d = Some z -> (0 < z_min z)%Z /\ (0 < z_max z)%Z.
Proof. unfold parse_size. intros H. open_parse H. injection H as <-. cbn. split; eapply optional_positive; eauto; reflexivity. Qed.
Lemma operators_inv d o : parse_operators to_float d = Some o ->
  forall q, In q [o_clusters o; o_weights o; o_cluster_effect o; o_confounding o; o_source o] -> (0 <= q)%Q.
Proof.
  unfold parse_operators. intros H. open_parse H. injection H as <-. cbn [o_clusters o_weights o_cluster_effect o_confounding o_source].
  intros q' [<-|[<-|[<-|[<-|[<-|[]]]]]]; eapply optional_nonneg; eauto; discriminate.
Qed.
Lemma mcmc_inv d c : parse_mcmc to_int to_float to_bool d = Some c ->
  ((0 < c_steps c)%Z /\ (0 < c_samples c)%Z /\ exists k, (c_steps c = k * c_samples c)%Z) /\
  ((0 < c_runs c)%Z /\ (0 < c_init c)%Z /\ (0 < w_steps (c_warmup c))%Z /\ (0 < w_chains (c_warmup c))%Z) /\
  ((0 <= c_grow c)%Q /\ (c_grow c <= 1)%Q) /\
  forall q, In q [o_clusters (c_operators c); o_weights (c_operators c); o_cluster_effect (c_operators c); o_confounding (c_operators c); o_source (c_operators c)] -> (0 <= q)%Q.
Proof.
  unfold parse_mcmc. intros H. open_parse H. injection H as <-. cbn [c_steps c_samples c_runs c_init c_warmup c_grow c_operators].
  apply andb_true_iff in B. destruct B as (_ & M). apply Z.eqb_eq in M. apply optional_positive in E, E0, E1, E3; try reflexivity. conj; auto.
  - exists (z / z0)%Z. rewrite Z.mul_comm. apply Z_div_exact_full_2; auto. lia.
  - unfold optional in E6. destruct (get _ d) as [x|]; [|injection E6 as <-; reflexivity]. apply section_inv in E6. destruct E6 as (c & -> & W).
    unfold parse_warmup in W. open_parse W. injection W as <-. cbn [w_steps w_chains]. refine (optional_positive _ E6); reflexivity.
  - unfold optional in E6. destruct (get _ d) as [x|]; [|injection E6 as <-; reflexivity]. apply section_inv in E6. destruct E6 as (c & -> & W).
    unfold parse_warmup in W. open_parse W. injection W as <-. cbn [w_steps w_chains]. refine (optional_positive _ E7); reflexivity.
  - unfold optional in E4. destruct (get _ d) as [x|]; [|injection E4 as <-; discriminate]. unfold unit_float in E4. open_parse E4.
    destruct (Qle_bool 0 q0 && Qle_bool q0 1) eqn:L; [|discriminate]. injection E4 as <-. apply andb_true_iff in L. apply Qle_bool_iff, L.
  - unfold optional in E4. destruct (get _ d) as [x|]; [|injection E4 as <-; discriminate]. unfold unit_float in E4. open_parse E4.
    destruct (Qle_bool 0 q0 && Qle_bool q0 1) eqn:L; [|discriminate]. injection E4 as <-. apply andb_true_iff in L. apply Qle_bool_iff, L.
  - unfold optional in E5. destruct (get _ d) as [x|].
    + apply section_inv in E5. destruct E5 as (c & -> & W). apply (operators_inv W).
    + injection E5 as <-. intros q' [<-|[<-|[<-|[<-|[<-|[]]]]]]; discriminate.
Qed.
Lemma prior_inv d p : parse_prior to_int to_float is_file base d = Some p ->
  (forall x, x = p_cluster p \/ x = p_weights p \/ (exists k ps g, In (k, ps) (p_confounding p) /\ In (g, x) ps) ->
    (forall f, d_file x = Some f -> is_file f = true) /\ (d_type x = s_ "uniform" \/ d_type x = s_ "dirichlet" /\ (d_file x <> None \/ d_parameters x <> None))) /\
  (exists g, parse_geo to_float is_file base g = Some (p_geo p)) /\ (exists z, parse_size to_int z = Some (p_size p)) /\
  exists ce, get (s_ "confounding_effects") d = Some (Dict ce) /\ items (section (items (section (parse_dirichlet is_file base)))) ce = Some (p_confounding p).
Proof.
  unfold parse_prior. intros H. open_parse H. injection H as <-. cbn [p_cluster p_weights p_confounding p_geo p_size].
  apply required_section in E, E0, E1, E2, E3. destruct E as (ce & G & CE), E0 as (c1 & _ & D1), E1 as (c2 & _ & D2), E2 as (c3 & _ & D3), E3 as (c4 & _ & D4).
  conj; eauto. intros x [->|[->|(k & ps & gr & I & J)]].
  - apply (dirichlet_inv D1).
  - apply (dirichlet_inv D4).
  - destruct (items_In CE I) as (j & _ & S). apply section_inv in S. destruct S as (dd & -> & PS). destruct (items_In PS J) as (j & _ & S).
    apply section_inv in S. destruct S as (dx & -> & DX). apply (dirichlet_inv DX).
Qed.
Lemma model_inv d m : parse_model to_int to_float to_bool to_str is_file base d = Some m ->
  (exists p, get (s_ "prior") d = Some (Dict p) /\ parse_prior to_int to_float is_file base p = Some (m_prior m)) /\
  (forall k gs, In (k, gs) (m_confounders m) -> exists ps, at_key (p_confounding (m_prior m)) k ps /\ forall g, In g gs -> exists x, at_key ps g x).
Proof.
  unfold parse_model. intros H. open_parse H. injection H as <-. cbn [m_prior m_confounders]. apply required_section in E2. destruct E2 as (pp & GP & PP).
  split; eauto. intros k gs I. unfold validate_confounder_priors in B. unfold optional in E0. destruct (get (s_ "confounders") d) as [[|cs]|]; try discriminate.
  cbn [section] in E0. destruct (items_In E0 I) as (x & IX & PX). rewrite forallb_forall in B. specialize (B _ IX). cbn [fst snd] in B.
  destruct (prior_inv PP) as (_ & _ & _ & ce & GC & CE).
  unfold priors_of in B. rewrite GP, GC in B. destruct (get k ce) as [j|] eqn:GK; [|discriminate]. destruct j as [|pr]; [discriminate|].
  destruct (items_get CE GK) as (ps & AK & SP). exists ps. split; auto. cbn [section] in SP.
  destruct x as [[| | | |groups]|]; try discriminate. intros g G. cbn [parse_groups] in PX. apply all_some_Forall2 in PX.
  assert (IN : In (Str g) groups).
  { rewrite forallb_forall in B. clear - CV B PX G. revert gs PX G.
    induction groups as [|v groups IH]; intros gs F G; inversion F as [|? y ? r' E F' Y R]; subst; [destruct G|].
    destruct G as [->|G]; [|right; apply (IH (fun w W => B w (or_intror W)) r'); auto]. specialize (B v (or_introl eq_refl)). destruct v; try discriminate.
    rewrite (texts CV) in E. injection E as ->. left. reflexivity. }
  rewrite forallb_forall in B. specialize (B _ IN). cbn in B. destruct (get g pr) as [jx|] eqn:GX; [|discriminate].
  destruct (items_get SP GX) as (y & AY & _). eauto.
Qed.
Lemma parsed_inv d c : parse_config d = Some c -> exists d' dd dm dc, validate_operators d = Some d' /\
  parse_data to_str is_file base dd = Some (s_data c) /\ get (s_ "model") d' = Some (Dict dm) /\ parse_model to_int to_float to_bool to_str is_file base dm = Some (s_model c) /\
  get (s_ "mcmc") d' = Some (Dict dc) /\ parse_mcmc to_int to_float to_bool dc = Some (s_mcmc c).
Proof.
  unfold parse_config, M_settings.parse_config. intros H. open_parse H. injection H as <-. cbn [s_data s_model s_mcmc].
  apply required_section in E0, E1, E2. destruct E0 as (c1 & _ & D1), E1 as (c2 & G2 & D2), E2 as (c3 & G3 & D3). exists d0, c1, c2, c3. conj; auto.
Qed.
Lemma consistency d c : parse_config d = Some c -> consistent is_file c.
Proof.
  intros H. destruct (parsed_inv H) as (d' & dd & dm & dc & _ & D & _ & M & _ & C).
  destruct (mcmc_inv C) as (C1 & C2 & C3 & C4). destruct (model_inv M) as ((p & _ & P) & M2). destruct (prior_inv P) as (P1 & (g & G) & (z & Z0) & _).
  destruct (geo_inv G) as (G1 & G2 & G3). destruct (size_inv Z0) as (Z1 & Z2).
  constructor; auto.
  - unfold parse_data in D. open_parse D. injection D as <-. cbn [t_features t_states]. apply required_inv in E, E0. destruct E as (x1 & _ & F1), E0 as (x2 & _ & F2).
    conj; auto; try (eapply file_path_inv; eauto). intros x q X Q. exact (proj1 (P1 x X) q Q).
  - intros x X. exact (proj2 (P1 x X)).
Qed.

(** ** Defaults *)
Ltac nodup := vm_compute; repeat (apply NoDup_cons; [simpl; intuition discriminate|]); apply NoDup_nil.
Ltac keys := repeat (constructor; [reflexivity|]); constructor.
Ltac leaf F := rewrite (field_leaf F (k := _)); [|discriminate|reflexivity|].
Definition sub (d : dict value) (k : string) : dict value := match get (s_ k) d with Some (Dict c) => c | _ => [] end.
Definition e_data := sub documented "data".
Definition e_model := sub documented "model".
Definition e_prior := sub e_model "prior".
Definition e_mcmc := sub documented "mcmc".
Definition e_operators := sub e_mcmc "operators".

Lemma num_int n : (0 < n)%Z -> positive_int to_int (Leaf (Num (inject_Z n))) = Some n.
Proof. intros H. unfold positive_int. rewrite (ints CV). destruct (Z.ltb_spec 0 n); [reflexivity|lia]. Qed.
Lemma num_nonneg q : Qle_bool 0 q = true -> nonneg_float to_float (Leaf (Num q)) = Some q.
Proof. intros H. unfold nonneg_float. rewrite (floats CV), H. reflexivity. Qed.

Ltac value := reflexivity || apply (texts CV) || apply (bools CV) || (apply num_nonneg; reflexivity) || (apply num_int; reflexivity) || idtac.
Ltac fill F := match type of F with filled _ _ _ ?d' =>
  repeat match goal with
    | |- context [optional ?v ?x ?k d'] =>
        first [ erewrite (@field_leaf _ v x _ _ _ d' k _ F); [|discriminate|reflexivity|value]
              | rewrite (@field_none _ v x _ _ _ d' k F); [|discriminate|reflexivity] ]
    | |- context [required ?v ?k d'] => rewrite (@needed_none _ v _ _ _ d' k F); [|discriminate|reflexivity]
    end end.

Lemma data_defaults d : parse_data to_str is_file base (set_defaults d e_data) = parse_data to_str is_file base d.
Proof.
  assert (F := @filled_defaults [] e_data d ltac:(nodup)). unfold parse_data. rewrite only_defaults by keys. fill F. reflexivity.
Qed.
Hypothesis no_file : is_file (fix_relative_path (s_ "from_data") base) = false.
Lemma geo_defaults d : parse_geo to_float is_file base (set_defaults d (sub e_prior "geo")) = parse_geo to_float is_file base d.
Proof.
  assert (F := @filled_defaults [] (sub e_prior "geo") d ltac:(nodup)). unfold parse_geo. rewrite only_defaults by keys. fill F; [reflexivity|].
  unfold costs, file_path, fix_path. cbn [is_text]. rewrite no_file. reflexivity.
Qed.
Lemma size_defaults d : parse_size to_int (set_defaults d (sub e_prior "objects_per_cluster")) = parse_size to_int d.
Proof.
  assert (F := @filled_defaults [] (sub e_prior "objects_per_cluster") d ltac:(nodup)). unfold parse_size. rewrite only_defaults by keys. fill F. reflexivity.
Qed.
Lemma dirichlet_defaults k d : In k ["cluster_effect"; "weights"]%string -> parse_dirichlet is_file base (set_defaults d (sub e_prior k)) = parse_dirichlet is_file base d.
Proof.
  intros K. assert (E : sub e_prior k = sub e_prior "weights") by (destruct K as [<-|[<-|[]]]; reflexivity). rewrite E. clear E K k.
  set (e := sub e_prior "weights").
  assert (F := @filled_defaults [] e d ltac:(nodup)). unfold parse_dirichlet. rewrite only_defaults by keys. fill F. f_equal. f_equal.
  assert (T : is_text "dirichlet" (get (s_ "type") (set_defaults d e)) = is_text "dirichlet" (get (s_ "type") d)).
  { rewrite F by discriminate. destruct (get (s_ "type") d) as [[|]|]; reflexivity. }
  assert (T1 : is_none (get (s_ "file") (set_defaults d e)) = is_none (get (s_ "file") d)).
  { rewrite F by discriminate. destruct (get (s_ "file") d) as [[|]|]; reflexivity. }
  assert (T2 : is_none (get (s_ "parameters") (set_defaults d e)) = is_none (get (s_ "parameters") d)).
  { rewrite F by discriminate. destruct (get (s_ "parameters") d) as [[|]|]; reflexivity. }
  rewrite T, T1, T2. reflexivity.
Qed.
Lemma prior_defaults d : Forall (fun k => exists c, there d k c) ["cluster_effect"; "geo"; "weights"]%string ->
  parse_prior to_int to_float is_file base (set_defaults d e_prior) = parse_prior to_int to_float is_file base d.
Proof.
  intros T. assert (F := @filled_defaults [] e_prior d ltac:(nodup)). unfold parse_prior. rewrite only_defaults by keys.
  apply Forall_inv in T as T1. apply Forall_inv_tail in T. apply Forall_inv in T as T2. apply Forall_inv_tail in T. apply Forall_inv in T as T3.
  destruct T1 as (c1 & T1), T2 as (c2 & T2), T3 as (c3 & T3).
  rewrite (@needed_none _ _ _ _ _ _ (s_ "confounding_effects") F) by (discriminate || reflexivity).
  rewrite (@needed_section _ _ _ _ _ _ (s_ "cluster_effect") (sub e_prior "cluster_effect") F); [|discriminate|reflexivity|intros a; apply dirichlet_defaults; simpl; auto|right; eauto].
  rewrite (@needed_section _ _ _ _ _ _ (s_ "geo") (sub e_prior "geo") F); [|discriminate|reflexivity|apply geo_defaults|right; eauto].
  rewrite (@needed_section _ _ _ _ _ _ (s_ "objects_per_cluster") (sub e_prior "objects_per_cluster") F); [|discriminate|reflexivity|apply size_defaults|left; reflexivity].
  rewrite (@needed_section _ _ _ _ _ _ (s_ "weights") (sub e_prior "weights") F); [|discriminate|reflexivity|intros a; apply dirichlet_defaults; simpl; auto|right; eauto].
  reflexivity.
Qed.
Lemma model_defaults d p c : there d "prior" p -> Forall (fun k => exists c, there p k c) ["cluster_effect"; "geo"; "weights"]%string -> get (s_ "confounders") d = Some c ->
  parse_model to_int to_float to_bool to_str is_file base (set_defaults d e_model) = parse_model to_int to_float to_bool to_str is_file base d.
Proof.
  intros P T C. assert (F := @filled_defaults [] e_model d ltac:(nodup)). unfold parse_model. rewrite only_defaults by keys.
  assert (GC : get (s_ "confounders") (set_defaults d e_model) = get (s_ "confounders") d) by (rewrite F by discriminate; rewrite C; destruct c; reflexivity).
  assert (GP : get (s_ "prior") (set_defaults d e_model) = Some (Dict (set_defaults p e_prior))) by (rewrite F by discriminate; rewrite P; reflexivity).
  f_equal.
  - unfold validate_confounder_priors. rewrite GC. destruct (get (s_ "confounders") d) as [[|cs]|]; auto. apply forallb_eq. intros kv.
    assert (E : priors_of (set_defaults d e_model) (fst kv) = priors_of d (fst kv)).
    { unfold priors_of. rewrite GP, P. rewrite set_defaults_get by nodup. destruct (get (s_ "confounding_effects") p) as [[|]|]; reflexivity. }
    rewrite E. reflexivity.
  - rewrite (optional_ext _ _ GC). erewrite (@field_leaf _ (parse_clusters to_int) (One 1) _ _ _ _ _ _ F); [|discriminate|reflexivity|].
    2:{ unfold parse_clusters. change 1%Q with (inject_Z 1). rewrite (ints CV). reflexivity. }
    erewrite (@field_leaf _ to_bool true _ _ _ _ _ _ F); [|discriminate|reflexivity|apply (bools CV)].
    replace (required (section (parse_prior to_int to_float is_file base)) (s_ "prior") (set_defaults d e_model))
      with (required (section (parse_prior to_int to_float is_file base)) (s_ "prior") d); [reflexivity|].
    unfold required. rewrite GP, P. cbn [section]. symmetry. apply prior_defaults, T.
Qed.
Lemma operators_filled k0 d d' : filled k0 e_operators d d' ->
  (k0 = [] \/ k0 = s_ "source" /\ get k0 d' = get k0 d) ->
  (forall keys, Forall (fun kv => mem (fst kv) (map s_ keys) = true) e_operators -> only keys d' = only keys d) ->
  parse_operators to_float d' = parse_operators to_float d.
Proof.
  intros F S O. unfold parse_operators. rewrite O by keys.
  assert (K : forall k : str, k <> [] -> k <> s_ "source" -> k <> k0) by (intros k A B; destruct S as [->|(-> & _)]; auto).
  assert (SO : optional (nonneg_float to_float) 10%Q (s_ "source") d' = optional (nonneg_float to_float) 10%Q (s_ "source") d).
  { destruct S as [->|(-> & G)]; [|apply optional_ext, G]. eapply field_leaf; [exact F|discriminate|reflexivity|apply num_nonneg; reflexivity]. }
  rewrite SO.
  repeat match goal with
    | |- context [optional ?v ?x ?k d'] => erewrite (@field_leaf _ v x _ _ _ d' k _ F); [|apply K; discriminate|reflexivity|value]
    end.
  reflexivity.
Qed.
Lemma mcmc_filled k0 d d' : filled k0 e_mcmc d d' ->
  (k0 = [] \/ k0 = s_ "operators" /\ optional (section (parse_operators to_float)) default_operators k0 d' = optional (section (parse_operators to_float)) default_operators k0 d) ->
  (forall keys, Forall (fun kv => mem (fst kv) (map s_ keys) = true) e_mcmc -> only keys d' = only keys d) ->
  parse_mcmc to_int to_float to_bool d' = parse_mcmc to_int to_float to_bool d.
Proof.
  intros F S O. unfold parse_mcmc. rewrite O by keys.
  assert (K : forall k : str, k <> [] -> k <> s_ "operators" -> k <> k0) by (intros k A B; destruct S as [->|(-> & _)]; auto).
  assert (SO : optional (section (parse_operators to_float)) default_operators (s_ "operators") d' = optional (section (parse_operators to_float)) default_operators (s_ "operators") d).
  { destruct S as [->|(-> & G)]; auto. eapply field_section; [exact F|discriminate|reflexivity| |].
    - unfold parse_operators, optional. cbn [get]. vm_compute (str_eqb _ _). cbv iota. rewrite !num_nonneg by reflexivity. reflexivity.
    - intros a. apply (@operators_filled [] a (set_defaults a e_operators)); auto; [apply filled_defaults; nodup|]. intros ks KS. apply only_defaults, KS. }
  rewrite SO. erewrite (@field_section _ (parse_warmup to_int) _ _ _ _ _ (s_ "warmup") _ F); [|apply K; discriminate|reflexivity| |].
  - repeat match goal with
    | |- context [optional ?v ?x ?k d'] => erewrite (@field_leaf _ v x _ _ _ d' k _ F); [|apply K; discriminate|reflexivity|value]
    end; [reflexivity|]. unfold unit_float. rewrite (floats CV). reflexivity.
  - unfold parse_warmup, optional. cbn [get]. vm_compute (str_eqb _ _). cbv iota. change 50000%Q with (inject_Z 50000). change 10%Q with (inject_Z 10). rewrite !num_int by reflexivity. reflexivity.
  - intros a. set (e := sub e_mcmc "warmup"). assert (F' := @filled_defaults [] e a ltac:(nodup)). unfold parse_warmup. change (set_defaults a _) with (set_defaults a e). rewrite only_defaults by keys. fill F'. reflexivity.
Qed.
Lemma results_defaults d : parse_results to_bool make_dir base (set_defaults d (sub documented "results")) = parse_results to_bool make_dir base d.
Proof.
  assert (F := @filled_defaults [] (sub documented "results") d ltac:(nodup)). unfold parse_results. rewrite only_defaults by keys. fill F. reflexivity.
Qed.
Lemma defaults_harmless d model prior mcmc source confounders : sections d model prior mcmc ->
  get (s_ "confounders") model = Some confounders -> get (s_ "sample_source") model = Some source -> (truthy source = true \/ exists o, there mcmc "operators" o) ->
  parse_config (set_defaults d documented) = parse_config d.
Proof.
  intros (M & P & C & T) GC GS O. assert (F := @filled_defaults [] documented d ltac:(nodup)).
  assert (N : NoDup (map fst documented)) by nodup.
  assert (GM : get (s_ "model") (set_defaults d documented) = Some (Dict (set_defaults model e_model))) by (rewrite set_defaults_get, M by exact N; reflexivity).
  assert (GK : get (s_ "mcmc") (set_defaults d documented) = Some (Dict (set_defaults mcmc e_mcmc))) by (rewrite set_defaults_get, C by exact N; reflexivity).
  assert (GS' : get (s_ "sample_source") (set_defaults model e_model) = Some source).
  { rewrite set_defaults_get, GS by nodup. destruct source; reflexivity. }
  assert (MD := model_defaults P T GC).
  assert (K : forall k0 a b, filled k0 documented a b -> (k0 = [] \/ k0 = s_ "mcmc") -> get (s_ "model") a = Some (Dict model) ->
    required (section (parse_mcmc to_int to_float to_bool)) (s_ "mcmc") b = required (section (parse_mcmc to_int to_float to_bool)) (s_ "mcmc") a ->
    (only ["data"; "model"; "mcmc"; "results"]%string b = only ["data"; "model"; "mcmc"; "results"]%string a) ->
    forall (a' b' : option (dict value)), a' = Some a -> b' = Some b ->
    match b' with Some d => data <- required (section (parse_data to_str is_file base)) (s_ "data") d;;
      model <- required (section (parse_model to_int to_float to_bool to_str is_file base)) (s_ "model") d;;
      mcmc <- required (section (parse_mcmc to_int to_float to_bool)) (s_ "mcmc") d;;
      results <- optional (section (parse_results to_bool make_dir base)) (default_results base) (s_ "results") d;;
      guard (only ["data"; "model"; "mcmc"; "results"]%string d) (Some {| s_data := data; s_model := model; s_mcmc := mcmc; s_results := results |}) | None => None end =
    match a' with Some d => data <- required (section (parse_data to_str is_file base)) (s_ "data") d;;
      model <- required (section (parse_model to_int to_float to_bool to_str is_file base)) (s_ "model") d;;
      mcmc <- required (section (parse_mcmc to_int to_float to_bool)) (s_ "mcmc") d;;
      results <- optional (section (parse_results to_bool make_dir base)) (default_results base) (s_ "results") d;;
      guard (only ["data"; "model"; "mcmc"; "results"]%string d) (Some {| s_data := data; s_model := model; s_mcmc := mcmc; s_results := results |}) | None => None end).
  { clear F. intros k0 a b F S GA E1 E2 a' b' -> ->. rewrite E1, E2.
    assert (K : forall k : str, k <> [] -> k <> s_ "mcmc" -> k <> k0) by (intros k A B; destruct S as [->| ->]; auto).
    rewrite (@needed_section _ _ _ _ _ _ (s_ "data") e_data F); [|apply K; discriminate|reflexivity|apply data_defaults|left; reflexivity].
    replace (required (section (parse_model to_int to_float to_bool to_str is_file base)) (s_ "model") b)
      with (required (section (parse_model to_int to_float to_bool to_str is_file base)) (s_ "model") a).
    - erewrite (@field_section _ (parse_results to_bool make_dir base) _ _ _ _ _ (s_ "results") (sub documented "results") F); [reflexivity|apply K; discriminate|reflexivity| |apply results_defaults].
      unfold parse_results, optional. cbn. rewrite (bools CV). reflexivity.
    - unfold required. rewrite (F (s_ "model")) by (apply K; discriminate). rewrite GA. cbn [section]. symmetry. exact MD. }
  assert (MF : parse_mcmc to_int to_float to_bool (set_defaults mcmc e_mcmc) = parse_mcmc to_int to_float to_bool mcmc).
  { apply (@mcmc_filled [] mcmc (set_defaults mcmc e_mcmc)); auto; [apply filled_defaults; nodup|]. intros ks KS. apply only_defaults, KS. }
  assert (OD : only ["data"; "model"; "mcmc"; "results"]%string (set_defaults d documented) = only ["data"; "model"; "mcmc"; "results"]%string d) by (apply only_defaults; keys).
  unfold parse_config, M_settings.parse_config. destruct (truthy source) eqn:TS.
  - apply (K [] d (set_defaults d documented)); auto.
    + unfold required. rewrite GK, C. exact MF.
    + unfold validate_operators. rewrite M, GS, TS. reflexivity.
    + unfold validate_operators. rewrite GM, GS', TS. reflexivity.
  - destruct O as [O|(o & O)]; [discriminate|].
    assert (GO : get (s_ "operators") (set_defaults mcmc e_mcmc) = Some (Dict (set_defaults o e_operators))) by (rewrite set_defaults_get, O by nodup; reflexivity).
    set (m1 := put (s_ "operators") (Dict (put (s_ "source") (Leaf (Num 0)) o)) mcmc).
    set (m2 := put (s_ "operators") (Dict (put (s_ "source") (Leaf (Num 0)) (set_defaults o e_operators))) (set_defaults mcmc e_mcmc)).
    apply (K (s_ "mcmc") (put (s_ "mcmc") (Dict m1) d) (put (s_ "mcmc") (Dict m2) (set_defaults d documented))); auto.
    + apply filled_put. intros k _. apply set_defaults_get, N.
    + rewrite get_put. exact M.
    + unfold required. rewrite !get_put. cbn [str_eqb]. rewrite !str_eqb_refl. cbn [section]. apply (@mcmc_filled (s_ "operators")).
      * apply filled_put. apply filled_defaults. nodup.
      * right. split; auto. unfold optional, m1, m2. rewrite !get_put, !str_eqb_refl. cbn [section]. apply (@operators_filled (s_ "source")).
        -- apply filled_put, filled_defaults. nodup.
        -- right. rewrite !get_put, !str_eqb_refl. auto.
        -- intros keys KS. rewrite !only_put; [apply only_defaults, KS| |]; rewrite Forall_forall in KS; apply (KS (s_ "source", Leaf (Num 10))); simpl; tauto.
      * intros keys KS. unfold m1, m2. rewrite !only_put; [apply only_defaults, KS| |]; rewrite Forall_forall in KS; apply (KS (s_ "operators", Dict e_operators)); simpl; tauto.
    + rewrite !only_put by reflexivity. exact OD.
    + unfold validate_operators. rewrite M, GS, TS, C, O. reflexivity.
    + unfold validate_operators. rewrite GM, GS', TS, GK, GO. reflexivity.
Qed.

(** ** Settings of runs *)
Lemma get_put_other k k' v (d : dict value) : k <> k' -> get k (put k' v d) = get k d.
Proof. intros N. rewrite get_put, (str_eqb_neq N). reflexivity. Qed.
Lemma get_put_same k v (d : dict value) : get k (put k v d) = Some v.
Proof. rewrite get_put, str_eqb_refl. reflexivity. Qed.
Lemma model_run m k r : parse_model to_int to_float to_bool to_str is_file base m = Some r ->
  parse_model to_int to_float to_bool to_str is_file base (put (s_ "clusters") (int k) m) =
  Some {| m_clusters := One k; m_confounders := m_confounders r; m_source := m_source r; m_prior := m_prior r |}.
Proof.
  unfold parse_model. intros H. rewrite only_put by reflexivity.
  replace (validate_confounder_priors (put (s_ "clusters") (int k) m)) with (validate_confounder_priors m).
  2:{ unfold validate_confounder_priors, priors_of. rewrite !(@get_put_other (s_ "confounders")), !(@get_put_other (s_ "prior")) by discriminate. reflexivity. }
  open_parse H. injection H as <-. cbn [m_confounders m_source m_prior].
  rewrite (@optional_ext _ _ _ (s_ "confounders") m), (@optional_ext _ _ _ (s_ "sample_source") m), (@required_ext _ _ (s_ "prior") m) by (apply get_put_other; discriminate).
  unfold optional at 1. rewrite get_put_same. unfold parse_clusters, int. rewrite (ints CV). rewrite E0, E1, E2. reflexivity.
Qed.
Lemma mcmc_run c r : parse_mcmc to_int to_float to_bool c = Some r -> forall c', (forall k, k <> s_ "runs" -> get k c' = get k c) -> get (s_ "runs") c' = Some (int 1) ->
  (forall keys, mem (s_ "runs") (map s_ keys) = true -> mem (s_ "operators") (map s_ keys) = true -> only keys c' = only keys c) ->
  parse_mcmc to_int to_float to_bool c' =
  Some {| c_steps := c_steps r; c_samples := c_samples r; c_runs := 1; c_from_prior := c_from_prior r; c_init := c_init r; c_grow := c_grow r; c_operators := c_operators r; c_warmup := c_warmup r |}.
Proof.
  unfold parse_mcmc. intros H c' G R O. rewrite O by reflexivity. open_parse H. injection H as <-. cbn [c_steps c_samples c_runs c_from_prior c_init c_grow c_operators c_warmup].
  rewrite (@optional_ext _ _ _ (s_ "steps") c), (@optional_ext _ _ _ (s_ "samples") c), (@optional_ext _ _ _ (s_ "sample_from_prior") c),
    (@optional_ext _ _ _ (s_ "init_objects_per_cluster") c), (@optional_ext _ _ _ (s_ "grow_to_adjacent") c), (@optional_ext _ _ _ (s_ "operators") c),
    (@optional_ext _ _ _ (s_ "warmup") c) by (apply G; discriminate).
  rewrite E, E0, E2, E3, E4, E5, E6. unfold optional. rewrite R. unfold int. rewrite num_int by reflexivity. unfold guard. rewrite B. reflexivity.
Qed.
Lemma run_accepted d c k : parse_config d = Some c -> parse_config (update_recursive d (run_settings k)) = Some (for_run c k).
Proof.
  intros H. unfold parse_config, M_settings.parse_config in *.
  assert (exists m x, get (s_ "model") d = Some (Dict m) /\ get (s_ "mcmc") d = Some (Dict x)) as (m & x & GM & GX).
  { destruct (validate_operators d) as [d'|] eqn:V; [|discriminate]. unfold validate_operators in V. destruct (get (s_ "model") d) as [[|m]|] eqn:GM; try discriminate.
    exists m. destruct (get (s_ "sample_source") m) as [t|]; [|discriminate]. destruct (truthy t).
    - injection V as <-. destruct (get (s_ "mcmc") d) as [[|x]|] eqn:GX; eauto; unfold required in H; rewrite GX in H; open_parse H; discriminate.
    - destruct (get (s_ "mcmc") d) as [[|x]|]; eauto; discriminate. }
  assert (U : update_recursive d (run_settings k) = put (s_ "mcmc") (Dict (put (s_ "runs") (int 1) x)) (put (s_ "model") (Dict (put (s_ "clusters") (int k) m)) d)).
  { unfold update_recursive, run_settings. rewrite up_unfold. cbn [up_loop]. unfold up_step at 2. rewrite GM. cbn [is_dict].
    unfold up_step at 1. rewrite get_put_other by discriminate. rewrite GX. cbn [is_dict]. rewrite !up_unfold. cbn [up_loop]. unfold up_step. cbn [is_dict int].
    destruct (get (s_ "runs") x) as [[|]|], (get (s_ "clusters") m) as [[|]|]; reflexivity. }
  rewrite U. clear U.
  set (u := put (s_ "mcmc") (Dict (put (s_ "runs") (int 1) x)) (put (s_ "model") (Dict (put (s_ "clusters") (int k) m)) d)).
  assert (UM : get (s_ "model") u = Some (Dict (put (s_ "clusters") (int k) m))) by (unfold u; rewrite get_put_other by discriminate; apply get_put_same).
  assert (UX : get (s_ "mcmc") u = Some (Dict (put (s_ "runs") (int 1) x))) by apply get_put_same.
  destruct (validate_operators d) as [d'|] eqn:V; [|discriminate].
  assert (X : exists u' x' y', validate_operators u = Some u' /\ get (s_ "model") d' = Some (Dict m) /\ get (s_ "model") u' = Some (Dict (put (s_ "clusters") (int k) m)) /\
     get (s_ "mcmc") d' = Some (Dict x') /\ get (s_ "mcmc") u' = Some (Dict y') /\
     (forall k, k <> s_ "runs" -> get k y' = get k x') /\ get (s_ "runs") y' = Some (int 1) /\ (forall keys, mem (s_ "runs") (map s_ keys) = true -> mem (s_ "operators") (map s_ keys) = true -> only keys y' = only keys x') /\
     get (s_ "data") u' = get (s_ "data") d' /\ get (s_ "results") u' = get (s_ "results") d' /\
     only ["data"; "model"; "mcmc"; "results"]%string u' = only ["data"; "model"; "mcmc"; "results"]%string d').
  { unfold validate_operators in *. rewrite UM. rewrite GM in V. rewrite get_put_other by discriminate. destruct (get (s_ "sample_source") m) as [t|]; [|discriminate].
    assert (OU : only ["data"; "model"; "mcmc"; "results"]%string u = only ["data"; "model"; "mcmc"; "results"]%string d) by (unfold u; rewrite !only_put by reflexivity; reflexivity).
    assert (UO : forall k, k <> s_ "mcmc" -> k <> s_ "model" -> get k u = get k d) by (intros k0 A B; unfold u; rewrite !get_put_other by auto; reflexivity).
    destruct (truthy t).
    - injection V as <-. exists u, x, (put (s_ "runs") (int 1) x). conj; auto; try (apply UO; discriminate).
      + intros k0 N. apply get_put_other, N.
      + apply get_put_same.
      + intros ks K _. apply only_put, K.
    - rewrite UX. rewrite GX in V. rewrite get_put_other by discriminate. destruct (get (s_ "operators") x) as [[|o]|] eqn:GO; try discriminate. injection V as <-.
      set (o' := Dict (put (s_ "source") (Leaf (Num 0)) o)).
      eexists. exists (put (s_ "operators") o' x), (put (s_ "operators") o' (put (s_ "runs") (int 1) x)). conj.
      + reflexivity.
      + rewrite get_put_other by discriminate. exact GM.
      + rewrite get_put_other by discriminate. exact UM.
      + apply get_put_same.
      + apply get_put_same.
      + intros k0 N. rewrite !get_put. rewrite (str_eqb_neq N). reflexivity.
      + rewrite get_put_other by discriminate. apply get_put_same.
      + intros ks K MO. rewrite !only_put by auto. reflexivity.
      + rewrite !get_put_other by discriminate. apply UO; discriminate.
      + rewrite !get_put_other by discriminate. apply UO; discriminate.
      + rewrite !only_put by reflexivity. exact OU. }
  destruct X as (u' & x' & y' & -> & DM & UM' & DX & UX' & A1 & A2 & A3 & A4 & A5 & A6).
  rewrite (required_ext _ A4), (optional_ext _ _ A5), A6. unfold required in *. rewrite UM', UX'. rewrite DM, DX in H. cbn [section] in *. open_parse H. injection H as <-.
  rewrite (model_run k E0). rewrite (mcmc_run E1 A1 A2 A3). reflexivity.
Qed.
End Parse.

(** * Paths *)
Lemma split_pieces c l a : In a (split c l) -> ~ In c a.
Proof.
  revert a. induction l as [|x l IH]; intros a H; cbn [split] in H.
  - destruct H as [<-|[]]. intros [].
  - destruct (ascii_dec x c) as [->|N].
    + destruct H as [<-|H]; [intros []|auto].
    + destruct (split c l) as [|p ps]; [destruct H as [<-|[]]; intros [|[]]; auto|]. destruct H as [<-|H].
      * intros [X|X]; [auto|]. apply (IH p); simpl; auto.
      * apply IH. right. exact H.
Qed.
Lemma components_proper s : proper (components s).
Proof.
  intros c H. unfold components in H. apply filter_In in H. destruct H as (H & M). conj.
  - intros ->. vm_compute in M. discriminate.
  - intros ->. vm_compute in M. discriminate.
  - apply (split_pieces H).
Qed.
Lemma proper_fix s base : proper base -> proper (fix_relative_path s base).
Proof. intros B. unfold fix_relative_path. destruct (is_absolute s); [apply components_proper|]. intros c H. apply in_app_iff in H. destruct H as [H|H]; [auto|apply (components_proper H)]. Qed.
Lemma filter_all A (f : A -> bool) l : (forall x, In x l -> f x = true) -> filter f l = l.
Proof. induction l as [|x l IH]; intros H; simpl; auto. rewrite (H x) by (left; auto). f_equal. apply IH. intros y Y. apply H. right. auto. Qed.
Lemma proper_shown p base : proper p -> fix_relative_path (show_path p) base = p.
Proof.
  intros P. unfold fix_relative_path, show_path. change (is_absolute (slash :: join [slash] p)) with true. cbv iota. unfold components.
  change (split slash (slash :: join [slash] p)) with ([] :: split slash (join [slash] p)). destruct p as [|c p]; [reflexivity|].
  rewrite split_join; [|discriminate|intros a A; apply (P a A)]. change (filter ?f ([] :: ?l)) with (filter f l).
  apply filter_all. intros a A. destruct (P a A) as (P1 & P2 & _). destruct (mem a (map s_ [""; "."]%string)) eqn:M; [|reflexivity]. exfalso.
  apply mem_In in M. destruct M as [M|[M|[]]]; [apply P1|apply P2]; rewrite <- M; reflexivity.
Qed.

(** * Writing settings back *)
Lemma all_some_map A B (f : A -> option B) g l : (forall x, In x l -> f x = Some (g x)) -> all_some (map f l) = Some (map g l).
Proof. induction l as [|x l IH]; intros H; simpl; auto. rewrite (H x) by (left; auto). rewrite IH; auto. intros y Y. apply H. right. auto. Qed.
Lemma items_map A B (v : json -> option B) (f : A -> json) (g : A -> B) l : (forall k x, In (k, x) l -> v (f x) = Some (g x)) ->
  items v (map (fun kv => (fst kv, f (snd kv))) l) = Some (map (fun kv => (fst kv, g (snd kv))) l).
Proof.
  intros H. unfold items. rewrite map_map. apply all_some_map. intros (k, x) I. cbn [fst snd]. rewrite (H k x I). reflexivity.
Qed.
Lemma get_map A (f : A -> json) k x l : at_key l k x -> get k (map (fun kv => (fst kv, f (snd kv))) l) = Some (f x).
Proof.
  intros (a & b & -> & N). induction a as [|(k', y) a IH]; cbn [map app get fst snd].
  - rewrite str_eqb_refl. reflexivity.
  - rewrite str_eqb_neq; [|intros ->; apply N; left; auto]. apply IH. intros X. apply N. right. auto.
Qed.
Section Dump.
Variable to_int : json -> option Z.
Variable to_float : json -> option Q.
Variable to_bool : json -> option bool.
Variable to_str : json -> option str.
Variable is_file : dir -> bool.
Variable make_dir : dir -> bool.
Variables base base' : dir.
Hypothesis CV : conversions to_int to_float to_bool to_str.
Hypothesis PB : proper base.
Hypothesis no_file : is_file (fix_relative_path (s_ "from_data") base') = false.
Lemma file_path_proper x p : file_path is_file base x = Some p -> file_path is_file base' (path_text p) = Some p.
Proof.
  intros H. assert (F := file_path_inv H). unfold file_path in H. open_parse H. destruct (is_file d) eqn:I; [|discriminate]. injection H as ->.
  unfold fix_path in E. destruct x as [[| | |s|]|]; try discriminate. injection E as <-. unfold file_path, path_text, text, fix_path.
  rewrite proper_shown by (apply proper_fix, PB). rewrite I. reflexivity.
Qed.
Lemma dump_dirichlet_parse d x : parse_dirichlet is_file base d = Some x -> section (parse_dirichlet is_file base') (dump_dirichlet x) = Some (applying x).
Proof.
  intros H. destruct (dirichlet_inv H) as (_ & T). unfold parse_dirichlet in H. open_parse H. injection H as <-. cbn [d_type d_file d_parameters] in T.
  unfold dump_dirichlet, applying. cbn [d_type d_file d_parameters section]. destruct T as [->|(-> & T)].
  - reflexivity.
  - destruct o as [p|].
    + apply nullable_inv in E0. destruct E0 as (y & _ & P). apply file_path_proper in P. unfold parse_dirichlet, optional. cbn. unfold path_text, text in P. cbn in P. rewrite P. reflexivity.
    + destruct o0 as [ps|]; [reflexivity|]. destruct T as [T|T]; congruence.
Qed.
Lemma dump_geo_parse d g : parse_geo to_float is_file base d = Some g -> section (parse_geo to_float is_file base') (dump_geo g) = Some g.
Proof.
  intros H. destruct (geo_inv H) as (R & RG & _). unfold parse_geo in H. open_parse H. injection H as <-. cbn [g_rate g_type] in R, RG.
  assert (O : forall names def k v, In def names -> optional (one_of names) (s_ def) k d = Some v -> one_of names (text v) = Some v).
  { intros names def k v I. unfold optional. destruct (get k d) as [y|].
    - intros X. apply one_of_inv in X. destruct X as (_ & X). unfold one_of, text. rewrite (proj2 (mem_In _ _) X). reflexivity.
    - intros X. injection X as <-. unfold one_of, text. rewrite (proj2 (mem_In _ _) (in_map s_ _ _ I)). reflexivity. }
  apply O in E, E1, E2, E5; [|simpl; auto..].
  assert (C : costs is_file base' (match o with Some p => path_text p | None => text (s_ "from_data") end) = Some o).
  { destruct o as [p|].
    - unfold optional in E0. destruct (get (s_ "costs") d) as [y|]; [|discriminate]. unfold costs in *. destruct (file_path is_file base y) as [q|] eqn:F.
      + injection E0 as ->. rewrite (file_path_proper F). reflexivity.
      + destruct (is_text _ _); discriminate.
    - unfold costs, file_path, fix_path, text. rewrite no_file. reflexivity. }
  assert (RT : nullable (positive_float to_float) (maybe float o0) = Some o0).
  { destruct o0 as [q|]; [|reflexivity]. unfold maybe, float, nullable, positive_float. rewrite (floats CV). destruct (Qle_bool q 0) eqn:L; [|reflexivity].
    apply Qle_bool_iff in L. specialize (R q eq_refl). exfalso. apply (Qlt_not_le _ _ R), L. }
  assert (IT : nullable to_float (maybe float o1) = Some o1) by (destruct o1 as [q|]; [unfold maybe, float, nullable; rewrite (floats CV)|]; reflexivity).
  unfold dump_geo, section, parse_geo, optional. cbn [g_type g_costs g_aggregation g_function g_rate g_inflection g_skeleton get].
  vm_compute (str_eqb (s_ _) (s_ _)). cbv iota. rewrite E, C, E1, E2, RT, IT, E5. unfold guard. change (only _ _) with true.
  apply andb_true_iff in B. destruct B as (_ & B). rewrite B. reflexivity.
Qed.
Lemma dump_size_parse d z : parse_size to_int d = Some z -> section (parse_size to_int) (dump_size z) = Some z.
Proof.
  intros H. destruct (size_inv H) as (P1 & P2). unfold parse_size in H. open_parse H. injection H as <-. cbn [z_min z_max] in *.
  apply required_inv in E. destruct E as (y & _ & E). apply one_of_inv in E. destruct E as (_ & E).
  unfold dump_size, section, parse_size, optional, required. cbn [z_type z_min z_max get]. vm_compute (str_eqb (s_ _) (s_ _)). cbv iota.
  unfold one_of, text. rewrite (proj2 (mem_In _ _) E). unfold int. rewrite (num_int CV P1), (num_int CV P2). reflexivity.
Qed.
Lemma dump_prior_parse d p : parse_prior to_int to_float is_file base d = Some p -> section (parse_prior to_int to_float is_file base') (dump_prior p) = Some (applying_priors p).
Proof.
  unfold parse_prior at 1. intros H. open_parse H. injection H as <-. apply required_section in E, E0, E1, E2, E3.
  destruct E as (c0 & _ & D0), E0 as (c1 & _ & D1), E1 as (c2 & _ & D2), E2 as (c3 & _ & D3), E3 as (c4 & _ & D4).
  unfold dump_prior, section at 1, parse_prior, required. cbn [p_confounding p_cluster p_geo p_size p_weights get]. vm_compute (str_eqb (s_ _) (s_ _)). cbv iota.
  rewrite (dump_dirichlet_parse D1), (dump_geo_parse D2), (dump_size_parse D3), (dump_dirichlet_parse D4). cbn [section].
  rewrite (@items_map _ _ (section (items (section (parse_dirichlet is_file base')))) (fun l => Dict (map (fun g => (fst g, dump_dirichlet (snd g))) l)) (fun l => map (fun g => (fst g, applying (snd g))) l)); [reflexivity|].
  intros k l0 I. cbn [section]. destruct (items_In D0 I) as (j & _ & S). apply section_inv in S. destruct S as (dd & -> & PS).
  apply items_map. intros gr x J. destruct (items_In PS J) as (jx & _ & S). apply section_inv in S. destruct S as (dx & -> & DX). apply (dump_dirichlet_parse DX).
Qed.
Lemma dump_clusters_parse s : parse_clusters to_int (match s with One k => int k | Many ks => Leaf (Seq (map (fun k => Num (inject_Z k)) ks)) end) = Some s.
Proof.
  destruct s as [k|ks]; unfold parse_clusters, int; [rewrite (ints CV); reflexivity|]. rewrite (no_int CV). rewrite map_map.
  rewrite (all_some_map (g := fun x => x)); [rewrite map_id; reflexivity|]. intros x _. apply (ints CV).
Qed.
Lemma dump_model_parse d m : parse_model to_int to_float to_bool to_str is_file base d = Some m ->
  section (parse_model to_int to_float to_bool to_str is_file base') (dump_model m) =
  Some {| m_clusters := m_clusters m; m_confounders := m_confounders m; m_source := m_source m; m_prior := applying_priors (m_prior m) |}.
Proof.
  intros H. destruct (model_inv CV H) as ((p & _ & P) & G). apply dump_prior_parse in P. unfold dump_model, section at 1, parse_model.
  assert (V : validate_confounder_priors
    [(s_ "clusters", match m_clusters m with One k => int k | Many ks => Leaf (Seq (map (fun k => Num (inject_Z k)) ks)) end);
     (s_ "confounders", Dict (map (fun kv => (fst kv, Leaf (Seq (map Str (snd kv))))) (m_confounders m)));
     (s_ "sample_source", Leaf (Bool (m_source m))); (s_ "prior", dump_prior (m_prior m))] = true).
  { unfold validate_confounder_priors, priors_of, dump_prior. cbn [get]. vm_compute (str_eqb (s_ _) (s_ _)). cbv iota.
    apply forallb_forall. intros (k, t) I. apply in_map_iff in I. destruct I as ((k', gs) & Q & I). injection Q as -> <-. cbn [fst snd].
    destruct (G k gs I) as (ps & AK & GS). cbn [get]. change (str_eqb (s_ "confounding_effects") (s_ "confounding_effects")) with true. cbv iota.
    assert (X := @get_map _ (fun l => Dict (map (fun g => (fst g, dump_dirichlet (snd g))) l)) k ps _ AK).
    match type of X with _ = ?r => match goal with |- match ?e with _ => _ end = true => replace e with r by (symmetry; exact X) end end. clear X.
    apply forallb_forall. intros x X. apply in_map_iff in X. destruct X as (g & <- & X). destruct (GS g X) as (y & AY). assert (Y := get_map dump_dirichlet AY).
    match type of Y with _ = ?r => match goal with |- match ?e with _ => _ end = true => replace e with r by (symmetry; exact Y) end end. reflexivity. }
  rewrite V. cbn [guard]. unfold optional, required. cbn [get]. vm_compute (str_eqb (s_ _) (s_ _)). cbv iota. rewrite dump_clusters_parse, (bools CV), P. cbn [section].
  rewrite (@items_map _ _ (parse_groups to_str) (fun l => Leaf (Seq (map Str l))) (fun l => l)).
  - replace (map (fun kv : str * list str => (fst kv, snd kv)) (m_confounders m)) with (m_confounders m); [reflexivity|].
    symmetry. etransitivity; [|apply map_id]. apply map_ext. intros (a, b). reflexivity.
  - intros k l _. unfold parse_groups. rewrite map_map. rewrite (all_some_map (g := fun x => x)); [rewrite map_id; reflexivity|]. intros x _. apply (texts CV).
Qed.
Lemma dump_mcmc_parse d c : parse_mcmc to_int to_float to_bool d = Some c -> section (parse_mcmc to_int to_float to_bool) (dump_mcmc c) = Some c.
Proof.
  intros H. destruct (mcmc_inv H) as ((S1 & S2 & k & SK) & (R1 & R2 & R3 & R4) & (G1 & G2) & O). unfold dump_mcmc, section at 1, parse_mcmc, optional.
  cbn [get]. vm_compute (str_eqb (s_ _) (s_ _)). cbv iota. unfold int. rewrite !(num_int CV) by assumption. rewrite (bools CV).
  assert (OP : section (parse_operators to_float) (dump_operators (c_operators c)) = Some (c_operators c)).
  { unfold dump_operators, section, parse_operators, optional. cbn [get]. vm_compute (str_eqb (s_ _) (s_ _)). cbv iota. unfold float.
    rewrite !(num_nonneg CV) by (apply Qle_bool_iff, O; simpl; tauto). destruct (c_operators c). reflexivity. }
  rewrite OP. unfold unit_float, float. rewrite (floats CV). rewrite (proj2 (Qle_bool_iff _ _) G1), (proj2 (Qle_bool_iff _ _) G2). cbn [andb section].
  unfold parse_warmup, optional. cbn [get]. vm_compute (str_eqb (s_ _) (s_ _)). cbv iota. rewrite !(num_int CV) by assumption.
  unfold guard. change (only _ _) with true. cbn [andb].
  replace (c_steps c mod c_samples c =? 0)%Z with true; [destruct c as [? ? ? ? ? ? ? []]; reflexivity|]. symmetry. apply Z.eqb_eq. rewrite SK. apply Z_mod_mult.
Qed.
Lemma update_nothing d c : M_settings.parse_config to_int to_float to_bool to_str is_file make_dir base d = Some c -> make_dir (r_path (s_results c)) = true ->
  (m_source (s_model c) = true \/ o_source (c_operators (s_mcmc c)) = 0%Q) ->
  update to_int to_float to_bool to_str is_file make_dir base' c [] = Some (applying_settings c).
Proof.
  intros H MD SO. unfold update. change (update_recursive (dump_config c) []) with (dump_config c).
  unfold M_settings.parse_config in H. destruct (validate_operators d) as [d'|]; [|discriminate]. open_parse H. injection H as <-. cbn [s_data s_model s_mcmc s_results] in *.
  apply required_section in E, E0, E1. destruct E as (c0 & _ & D0), E0 as (c1 & _ & D1), E1 as (c2 & _ & D2).
  set (cf := {| s_data := d0; s_model := m; s_mcmc := m0; s_results := r |}).
  assert (V : exists c', validate_operators (dump_config cf) = Some c' /\ get (s_ "data") c' = get (s_ "data") (dump_config cf) /\ get (s_ "model") c' = get (s_ "model") (dump_config cf) /\
     get (s_ "results") c' = get (s_ "results") (dump_config cf) /\ required (section (parse_mcmc to_int to_float to_bool)) (s_ "mcmc") c' = Some m0 /\
     only ["data"; "model"; "mcmc"; "results"]%string c' = true).
  { unfold validate_operators, dump_config, dump_model. cbn [get s_model s_mcmc cf]. vm_compute (str_eqb (s_ _) (s_ _)). cbv iota. cbn [truthy].
    assert (P := dump_mcmc_parse D2).
    destruct (m_source m) eqn:MS.
    - eexists. split; [reflexivity|]. conj; try reflexivity. exact P.
    - destruct SO as [SO|SO]; [congruence|]. unfold dump_mcmc, dump_operators. cbn [get]. vm_compute (str_eqb (s_ _) (s_ _)). cbv iota.
      eexists. split; [reflexivity|]. conj; try reflexivity.
      unfold required. rewrite get_put, str_eqb_refl. etransitivity; [|exact P]. cbn [section dump_mcmc]. 
      unfold dump_operators. rewrite SO. reflexivity. }
  unfold M_settings.parse_config. destruct V as (c' & -> & V1 & V2 & V3 & V4 & V5). rewrite (required_ext _ V1), (required_ext _ V2), (optional_ext _ _ V3), V4, V5.
  unfold required, optional, dump_config. cbn [get]. vm_compute (str_eqb (s_ _) (s_ _)). cbv iota. cbn [s_model cf s_data s_results]. rewrite (dump_model_parse D1).
  unfold section at 1, parse_data. unfold parse_data in D0. open_parse D0. injection D0 as <-. cbn [t_features t_states t_projection].
  apply required_inv in E, E0. destruct E as (x1 & _ & F1), E0 as (x2 & _ & F2). apply file_path_proper in F1, F2.
  unfold required, optional. cbn [get]. vm_compute (str_eqb (s_ _) (s_ _)). cbv iota. rewrite F1, F2. unfold text. rewrite (texts CV).
  unfold section, parse_results, optional. cbn [get]. vm_compute (str_eqb (s_ _) (s_ _)). cbv iota. rewrite (bools CV).
  assert (PR : proper (r_path r)).
  { unfold optional in E2. destruct (get (s_ "results") d') as [y|].
    - apply section_inv in E2. destruct E2 as (cr & -> & R). unfold parse_results in R. open_parse R. injection R as <-. cbn [r_path].
      unfold optional in E. destruct (get (s_ "path") cr) as [y|].
      + unfold directory_path in E. destruct (fix_path base y) as [q|] eqn:FP; [|discriminate]. destruct (make_dir q); [|discriminate]. injection E as <-. unfold fix_path in FP.
        destruct y as [[| | |t|]|]; try discriminate. injection FP as <-. apply proper_fix, PB.
      + injection E as <-. apply proper_fix, PB.
    - injection E2 as <-. apply proper_fix, PB. }
  unfold directory_path, path_text, text, fix_path. rewrite (proper_shown _ PR), MD. destruct r. reflexivity.
Qed.
End Dump.
