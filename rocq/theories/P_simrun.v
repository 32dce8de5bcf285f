(** C91: a whole simulation. *)
From Coq Require Import Lqa Permutation Qround.
From Verif Require Import L_cache M_simrun S_simrun S_simdata L_data L_text L_config L_plot L_simdata L_simrun S_model P_sim P_simdata.
From Verif Require L_params L_contrib.
Open Scope nat_scope.

(** * The numbers of states of the features *)
(** If the fractions sum to one, there is one number per feature, all of them are configured, and the number of features
    with [k] states is the configured one up to rounding and the features that are drawn. *)
Theorem C91_states n ns picks shuffle l :
  NoDup (map fst ns) -> fractions ns -> possible n ns picks shuffle -> states_per_feature n ns picks shuffle = Some l ->
  length l = n /\
  (forall k, In k l -> exists v, In (k, v) ns /\ (1 <= times n v)%Q) /\
  (forall k v, In (k, v) ns -> (times n v - 1 < inject_Z (Z.of_nat (count_occ Nat.eq_dec l k)))%Q /\
     (inject_Z (Z.of_nat (count_occ Nat.eq_dec l k)) < times n v + inject_Z (Z.of_nat (length ns)))%Q).
Proof.
  intros ND (P & S1) PO H. destruct (@per_feature_perm n ns picks shuffle l PO H) as (PE & L).
  destruct (@listed_sum n ns P) as (A & B). assert (NE : ns <> []) by (intros ->; vm_compute in S1; discriminate). specialize (B NE).
  assert (T : (times n (Qsum (map snd ns)) == inject_Z (Z.of_nat n))%Q) by (unfold times; rewrite S1; ring). rewrite T in A, B.
  rewrite <- Zle_Qle in A. assert (LN : length (listed n ns) <= n) by lia. conj.
  - lia.
  - intros k K. apply listed_In. apply (Permutation_in _ PE) in K. exact (@full_In n ns picks shuffle k PO K).
  - intros k v I. rewrite (Permutation_count_occ Nat.eq_dec) in PE. rewrite PE. unfold full_list. rewrite count_app, (@count_listed n ns k v) by auto.
    assert (PV : (0 <= v)%Q) by (rewrite Forall_forall in P; exact (P _ I)). destruct (@count_floor n v PV) as (C & D).
    set (x := if _ <? _ then _ else _). assert (X : count_occ Nat.eq_dec x k <= n - length (listed n ns)).
    { etransitivity; [apply count_occ_bound|]. unfold x. destruct (_ <? _); [|simpl; lia]. rewrite map_length. destruct PO as (-> & _). lia. }
    rewrite Nat2Z.inj_add, inject_Z_plus.
    assert (X1 : (0 <= inject_Z (Z.of_nat (count_occ Nat.eq_dec x k)))%Q) by (rewrite <- (Zle_Qle 0); lia).
    assert (X2 : (inject_Z (Z.of_nat (count_occ Nat.eq_dec x k)) <= inject_Z (Z.of_nat n) - inject_Z (Z.of_nat (length (listed n ns))))%Q).
    { unfold Qminus. rewrite <- inject_Z_opp, <- inject_Z_plus, <- Zle_Qle. lia. }
    lra.
Qed.
Print Assumptions C91_states.
Definition parts : list (nat * Q) := [(2, 4 # 10); (3, 3 # 10); (4, 3 # 10)].
Definition order9 : list nat := [8; 0; 7; 1; 6; 2; 5; 3; 4].
Example C91_states_case : NoDup (map fst parts) /\ fractions parts /\ possible 9 parts [5; 0] order9 /\
  states_per_feature 9 parts [5; 0] order9 = Some [2; 2; 4; 2; 4; 2; 4; 3; 3].
Proof.
  conj; try (vm_compute; reflexivity).
  - repeat constructor; simpl; intuition discriminate.
  - repeat constructor; discriminate.
  - unfold possible. conj; try (vm_compute; reflexivity).
    + vm_compute. repeat constructor.
    + change (seq 0 _) with [0; 1; 2; 3; 4; 5; 6; 7; 8]. unfold order9. apply NoDup_Permutation.
      * repeat constructor; simpl; intuition discriminate.
      * repeat constructor; simpl; intuition discriminate.
      * intros x. simpl. tauto.
Qed.

(** There are no numbers exactly if all fractions of the features are less than one feature. *)
Theorem C91_fails n ns picks shuffle :
  states_per_feature n ns picks shuffle = None <-> 1 <= n /\ forall k v, In (k, v) ns -> (times n v < 1)%Q.
Proof.
  unfold states_per_feature. assert (E : listed n ns = [] <-> forall k v, In (k, v) ns -> (times n v < 1)%Q).
  { split.
    - intros H k v I. destruct (Qlt_le_dec (times n v) 1) as [L|L]; auto. assert (In k (listed n ns)) as X by (apply listed_In; eauto).
      rewrite H in X. destruct X.
    - intros H. destruct (listed n ns) as [|k r] eqn:L; auto. assert (In k (listed n ns)) as X by (rewrite L; left; auto).
      apply listed_In in X. destruct X as (v & I & T). specialize (H k v I). lra. }
  destruct (length (listed n ns) <? n) eqn:B.
  - apply Nat.ltb_lt in B. destruct (listed n ns) as [|k r]; simpl; split; intros H; try discriminate; auto.
    + split; [simpl in B; lia|]. apply E. reflexivity.
    + destruct H as (_ & H). apply E in H. discriminate.
  - apply Nat.ltb_ge in B. simpl. split; intros H; [discriminate|]. destruct H as (N & H). apply E in H. rewrite H in B. simpl in B. lia.
Qed.
Print Assumptions C91_fails.
Example C91_fails_case : states_per_feature 2 parts [] [] = None /\ states_per_feature 3 parts [0; 0] [2; 1; 0] = Some [2; 2; 2].
Proof. split; reflexivity. Qed.

(** * The simulated features *)
(** Whatever is drawn: one row per site, one state per feature, and no state beyond the states of the feature. *)
Theorem C91_range parse parse_int int_of config rows dr sm ns :
  run_simulation parse parse_int int_of config rows dr = Some sm -> n_states_of int_of config = Some ns ->
  Forall (fun kv => 1 <= fst kv) ns -> possible (sm_n sm) ns (dr_picks dr) (dr_shuffle dr) ->
  length (sm_features sm) = length (si_id (sm_sites sm)) /\
  forall o row, nth_error (sm_features sm) o = Some row -> length row = sm_n sm /\
    forall f, f < sm_n sm -> nth f row 0 < nth f (sm_states sm) 0 /\ In (nth f (sm_states sm) 0) (map fst ns).
Proof.
  intros H NS POS PO. destruct (@run_inv parse parse_int int_of config rows dr sm H) as (ns' & ks & _ & NS' & _ & _ & SP & MX & _ & PR & FE).
  assert (ns' = ns) by congruence. subst ns'. destruct (@per_feature_perm _ _ _ _ _ PO SP) as (PE & L).
  assert (IN : forall f, f < sm_n sm -> In (nth f (sm_states sm) 0) (map fst ns)).
  { intros f F. assert (I : In (nth f (sm_states sm) 0) (sm_states sm)) by (apply nth_In; lia). apply (Permutation_in _ PE) in I.
    apply (@full_In _ _ _ _ _ PO), listed_In in I. destruct I as (v & I & _). apply in_map_iff. exists (nth f (sm_states sm) 0, v). auto. }
  split; [rewrite FE, map_length, seq_length; reflexivity|]. intros o row R. rewrite FE in R.
  apply nth_error_seq_map in R. destruct R as (O & ->). rewrite map_length, seq_length.
  split; auto. intros f F. split; [|auto]. rewrite nth_seq_map by auto. unfold sim_feature.
  destruct (@drawn_positive (dr_uniform dr f o) (sim_dist (sm_max sm) (dr_weights dr) (combine (sm_groups sm) (sm_probs sm)) f o)) as [E|(p & E & P)].
  - rewrite E. specialize (IN f F). apply in_map_iff in IN. destruct IN as (kv & <- & I). rewrite Forall_forall in POS. specialize (POS _ I). lia.
  - set (s := categorical _ _) in *. clearbody s. destruct (Nat.lt_ge_cases s (nth f (sm_states sm) 0)) as [G|G]; auto. exfalso.
    pose proof (@mixture_zero _ _ _ _ _ _ _ _ (@probs_zero sm dr f s F G PR) E) as Z0. rewrite Z0 in P. lra.
Qed.
Print Assumptions C91_range.

(** Weights are only accepted if they sum to one for every feature, up to the tolerance of [np.allclose]
    (a run that meets the hypothesis: C91_case). *)
Theorem C91_weights parse parse_int int_of config rows dr sm w : run_simulation parse parse_int int_of config rows dr = Some sm -> In w (dr_weights dr) ->
  (1 - (1001 # 100000000) <= fold_right Qplus 0 w <= 1 + (1001 # 100000000))%Q.
Proof.
  unfold run_simulation. destruct (n_features_of config); [|discriminate]. destruct (n_states_of int_of config); [|discriminate]. destruct (confounders_of config); [|discriminate].
  destruct (load_canvas _ _ _ _); [|discriminate]. destruct (states_per_feature _ _ _ _) as [[|? ?]|]; try discriminate.
  destruct (forallb _ (dr_weights dr)) eqn:F; [|discriminate]. intros _ I. rewrite forallb_forall in F. specialize (F w I). apply Qle_bool_iff in F.
  change (Qabs 1) with 1%Q in F. apply Qabs_Qle_condition in F. change (Qsum w) with (fold_right Qplus 0 w)%Q in F. lra.
Qed.
Print Assumptions C91_weights.

(** With fair draws, the states of a site follow the mixture of the effects of its cluster and its groups, with the
    weights of the feature among the effects that apply; no state beyond those of the feature has any probability.  The
    condition on the site is needed (C53_refuted). *)
Theorem C91_mixture parse parse_int int_of config rows dr sm ns o f :
  run_simulation parse parse_int int_of config rows dr = Some sm -> rectangular rows -> n_states_of int_of config = Some ns ->
  possible (sm_n sm) ns (dr_picks dr) (dr_shuffle dr) -> fair sm dr ->
  o < length (si_id (sm_sites sm)) -> f < sm_n sm ->
  (si_confounders (sm_sites sm) <> [] \/ nth o (si_cluster (sm_sites sm)) 0%Z <> 0%Z) ->
  exists p r, prob_vector (sm_max sm) p /\ (forall s, nth f (sm_states sm) 0 <= s -> (nth s p 0 == 0)%Q) /\
    available_distribution (nth f (dr_weights dr) []) (map (fun gs => any_group gs o) (sm_groups sm)) r /\
    (forall s, s < nth f (sm_states sm) 0 -> exists qs, length qs = length (sm_groups sm) /\
       (forall c gs, nth_error (sm_groups sm) c = Some gs ->
          (exists g, in_only gs o g /\ nth c qs 0%Q = nth s (dr_probs dr c g f) 0%Q) \/ (in_none gs o /\ nth c qs 0%Q = 0%Q)) /\
       (nth s p 0 == Qsum (map2 Qmult r qs))%Q) /\
    forall s, nth f (nth o (sm_features sm) []) 0 = s <->
      s < sm_max sm /\ (Qsum (firstn s p) <= dr_uniform dr f o)%Q /\ (dr_uniform dr f o < Qsum (firstn (S s) p))%Q.
Proof.
  intros H RE NS PO (FW1 & FW2 & FP & FU) O F SOME. destruct (@run_inv parse parse_int int_of config rows dr sm H) as (ns' & ks & _ & NS' & _ & CAN & SP & MX & GR & PR & FE).
  assert (ns' = ns) by congruence. subst ns'. destruct (@per_feature_perm _ _ _ _ _ PO SP) as (_ & L).
  destruct (@canvas_lengths _ _ _ _ _ RE CAN) as (_ & _ & LC & LF & _).
  assert (KM : nth f (sm_states sm) 0 <= sm_max sm) by (rewrite MX; apply max_ge; lia).
  destruct (nth_error (dr_weights dr) f) as [w|] eqn:W; [|apply nth_error_None in W; lia].
  rewrite Forall_forall in FW2. destruct (FW2 w (nth_error_In _ _ W)) as (LW & PW).
  set (si := sm_sites sm) in *. set (AP := fun c (g : bmat) => assignment_probabilities (sm_n sm) (sm_max sm) (sm_states sm) (length g) (dr_probs dr c)) in *.
  assert (PE : sm_probs sm = AP 0 (assign_to_cluster (si_cluster si)) :: mapi (fun c => AP (S c)) (map assign_to_confounder (map snd (si_confounders si)))).
  { rewrite PR, GR, map_map. apply mapi_cons. }
  assert (GE : sm_groups sm = assign_to_cluster (si_cluster si) :: map assign_to_confounder (map snd (si_confounders si))) by (rewrite GR, map_map; reflexivity).
  assert (ROW : forall c g i, i < length g -> nth f (nth i (AP c g) []) [] = map (fun s => if s <? nth f (sm_states sm) 0 then nth s (dr_probs dr c i f) 0%Q else 0%Q) (seq 0 (sm_max sm))).
  { intros c g i I. unfold AP, assignment_probabilities. rewrite nth_seq_map by auto. apply nth_seq_map. auto. }
  assert (LP : length (sm_probs sm) = length (sm_groups sm)) by (rewrite PR, (@L_contrib.mapi_nth _ _ _ []), map_length, seq_length; reflexivity).
  assert (PN : forall c gs, nth_error (sm_groups sm) c = Some gs -> nth_error (sm_probs sm) c = Some (AP c gs)).
  { intros c gs C. rewrite PR. etransitivity; [apply nth_error_mapi|]. exact (f_equal (option_map (AP c)) C). }
  destruct (@C53_simulation_partial (sm_max sm) (dr_weights dr) (si_cluster si) (AP 0 (assign_to_cluster (si_cluster si))) (map snd (si_confounders si))
     (mapi (fun c => AP (S c)) (map assign_to_confounder (map snd (si_confounders si)))) f o w (length (si_id si)) W PW) as (p & r & SD & PV & AV & MI); auto.
  - rewrite map_length. exact LW.
  - apply Forall_map, LF.
  - etransitivity; [apply mapi_length|apply map_length].
  - rewrite <- PE, <- GE. apply Forall_forall. intros (gs, es) I. apply In_nth_error in I. destruct I as (c & I).
    apply nth_error_combine in I. destruct I as (I1 & I2). rewrite (PN _ _ I1) in I2. injection I2 as <-. cbn [fst snd]. split.
    + unfold AP, assignment_probabilities. rewrite map_length, seq_length. reflexivity.
    + apply Forall_forall. intros e E. apply In_nth with (d := []) in E. destruct E as (i & LI & <-).
      unfold AP, assignment_probabilities in LI. rewrite map_length, seq_length in LI. rewrite ROW by auto. apply padded_point; auto.
  - destruct SOME as [N|N]; [left|right]; auto. intros E. apply map_eq_nil in E. auto.
  - rewrite <- PE, <- GE in SD, AV, MI. exists p, r. conj; auto.
    + intros s S. exact (@mixture_zero _ _ _ _ _ _ _ _ (@probs_zero sm dr f s F S PR) SD).
    + rewrite (nth_error_nth _ _ _ W). replace (map (fun gs => any_group gs o) (sm_groups sm)) with (map (fun c => any_group (fst c) o) (combine (sm_groups sm) (sm_probs sm))); auto.
      rewrite <- (map_map fst (fun gs => any_group gs o)), combine_fst; auto.
    + intros s S. destruct (MI s) as (qs & F2 & Q); [lia|]. exists qs. pose proof (Forall2_len F2) as LQ. rewrite combine_length, LP, Nat.min_id in LQ. conj; auto.
      intros c gs C. assert (CC : nth_error (combine (sm_groups sm) (sm_probs sm)) c = Some (gs, AP c gs)) by (apply nth_error_combine; auto).
      destruct (L_data.Forall2_nth F2 CC) as (q & NQ & ME). rewrite (nth_error_nth _ _ _ NQ). destruct ME as [(g & G & ->)|(N & ->)]; [left|right; auto].
      exists g. split; auto. cbn [snd]. assert (LG : g < length gs). { destruct (Nat.lt_ge_cases g (length gs)) as [X|X]; auto. exfalso.
        destruct (G g) as (_ & X2). cbn [fst] in X2. rewrite (nth_overflow gs) in X2 by auto. specialize (X2 eq_refl). destruct o; discriminate. }
      rewrite ROW by auto. rewrite nth_seq_map by lia. destruct (Nat.ltb_spec s (nth f (sm_states sm) 0)); auto. lia.
    + intros s. rewrite FE, nth_seq_map, nth_seq_map by auto. unfold sim_feature. rewrite SD. destruct PV as (P1 & P2 & P3). destruct (FU f o) as (U1 & U2).
      rewrite (@L_params.categorical_spec p (dr_uniform dr f o) P2 P3 U1 U2 s). rewrite P1. reflexivity.
Qed.
Print Assumptions C91_mixture.

(** The files of the simulation can be read as the data of an analysis, which then has at most as many states per feature
    as were simulated.  Missing for the full statement: equally many states, which is false (below). *)
Definition applicable (d : loaded) (f : nat) : nat := length (filter (fun b : bool => b) (nth f (enc_states (ld_features d)) [])).
Lemma true_positions (row : list bool) : length (filter (fun b : bool => b) row) = length (filter (fun j => nth j row false) (seq 0 (length row))).
Proof.
  induction row as [|b row IH]; auto. cbn [length seq filter nth]. rewrite <- seq_shift.
  assert (E : forall l, length (filter (fun j => nth j (b :: row) false) (map S l)) = length (filter (fun j => nth j row false) l)).
  { induction l as [|j l IHl]; auto. cbn [map filter nth]. destruct (nth j row false); simpl; auto. }
  destruct b; simpl length; rewrite ?E, IH; auto.
Qed.
Theorem C91_read_back_partial parse parse_int int_of config rows dr sm ns ks na show list_set gs :
  run_simulation parse parse_int int_of config rows dr = Some sm -> rectangular rows -> n_states_of int_of config = Some ns ->
  Forall (fun kv => 1 <= fst kv) ns -> possible (sm_n sm) ns (dr_picks dr) (dr_shuffle dr) ->
  1 <= sm_n sm -> confounders_of config = Some ks -> NoDup ks -> Forall (fun k => k <> s_ "name" /\ forall i, k <> s_ "f" ++ str_nat i) ks ->
  readable na show parse (sm_sites sm) -> lists_sets list_set -> names_groups (sm_sites sm) gs ->
  exists d, read_features_from_csv na parse (features_csv show (sm_sites sm) (sm_n sm) (sm_features sm))
      (feature_states_csv list_set (sm_n sm) (sm_features sm)) gs = Some d /\
    same_data (sm_sites sm) (sm_n sm) (sm_features sm) gs d /\
    forall f, f < sm_n sm -> applicable d f <= nth f (sm_states sm) 0.
Proof.
  intros H RE NS POS PO N1 KS KND KN OK SETS GS.
  destruct (@C91_range _ _ _ _ _ _ _ _ H NS POS PO) as (LF & RA).
  destruct (@run_inv parse parse_int int_of config rows dr sm H) as (ns' & ks' & _ & _ & KS' & CAN & _).
  assert (ks' = ks) by congruence. subst ks'. destruct (@canvas_lengths _ _ _ _ _ RE CAN) as (LX & LY & _ & LL & NK & NC).
  assert (SIM : simulated (sm_sites sm) (sm_n sm) (sm_features sm)).
  { constructor; auto.
    - split; auto. apply Forall_forall. intros r R. apply In_nth_error in R. destruct R as (o & R). apply (RA _ _ R).
    - rewrite NK. split; auto. rewrite Forall_forall in *. intros c C.
      assert (K : In (fst c) ks) by (rewrite <- NK; apply in_map; auto). destruct (KN _ K) as (K1 & K2). specialize (NC _ K). split; auto.
      simpl in *. intros D. decompose [or] D; auto 7. }
  destruct (@C89_read_back_partial na show parse list_set (sm_sites sm) (sm_n sm) (sm_features sm) gs SIM OK SETS GS) as (d & RD & SD).
  exists d. conj; auto. intros f F. unfold applicable. rewrite true_positions.
  set (row := nth f (enc_states (ld_features d)) []). set (names := nth f (enc_names (ld_features d)) []).
  set (js := filter (fun j => nth j row false) (seq 0 (length row))).
  destruct (observed_states SD F) as (ND & OB). fold row names in ND, OB.
  assert (J : forall j, In j js -> exists v, v < nth f (sm_states sm) 0 /\ nth_error names j = Some (str_nat v)).
  { intros j I. unfold js in I. apply filter_In in I. destruct I as (_ & I). destruct (OB j I) as (o & r & R & E).
    exists (nth f r 0). split; auto. apply (RA o r R). auto. }
  assert (NDJ : NoDup js) by (apply NoDup_filter, seq_NoDup).
  rewrite <- (map_length (fun j => nth j names []) js), <- (seq_length (nth f (sm_states sm) 0) 0), <- (map_length str_nat (seq _ _)).
  apply NoDup_incl_length.
  - clearbody js names. clear - NDJ J ND. induction NDJ as [|j js A B IH]; [constructor|]. cbn [map]. constructor; [|apply IH; intros; apply J; right; auto].
    intros I. apply in_map_iff in I. destruct I as (i & E & I). assert (i = j); [|congruence].
    destruct (J i (or_intror I)) as (v & _ & V). destruct (J j (or_introl eq_refl)) as (u & _ & U).
    rewrite (nth_error_nth _ _ _ V), (nth_error_nth _ _ _ U) in E. rewrite NoDup_nth_error in ND. apply ND; [apply nth_error_Some|]; congruence.
  - intros x X. apply in_map_iff in X. destruct X as (j & <- & I). destruct (J j I) as (v & L & V). rewrite (nth_error_nth _ _ _ V).
    apply in_map, in_seq. lia.
Qed.
Print Assumptions C91_read_back_partial.

(** * The configuration of a simulation *)
(** What is needed has to be given by the user; the number of features is the one of the user, or 20. *)
Lemma top_items k x (d : dict M_simrun.setting) : M_config.get k d = Some (Leaf x) -> In (k, x, []) (iter_items_recursive d).
Proof.
  unfold iter_items_recursive. rewrite it_unfold. induction d as [|(m, v) d IH]; [discriminate|]. cbn [M_config.get it_loop]. intros H. apply in_or_app.
  destruct (str_eqb k m) eqn:E; [left|right; auto]. injection H as ->. apply str_eqb_eq in E. subst m. left. reflexivity.
Qed.
Lemma default_keys : NoDup (map fst default_config).
Proof. vm_compute; repeat (apply NoDup_cons; [simpl; intuition discriminate|]); apply NoDup_nil. Qed.
Theorem C91_config user config : load_config_simulation user = Some config ->
  (forall k, In k (map s_ ["canvas"; "cluster_effect"; "confounding_effects"]%string) ->
     exists t, M_config.get k user = Some t /\ t <> Leaf M_simrun.required /\ M_config.get k config = Some t) /\
  (forall q, M_config.get (s_ "n_features") user = Some (Leaf q) -> M_config.get (s_ "n_features") config = Some (Leaf q)) /\
  (forall n, M_config.get (s_ "n_features") user = Some (Leaf (Num (inject_Z (Z.of_nat n)))) -> n_features_of config = Some n) /\
  (M_config.get (s_ "n_features") user = None -> n_features_of config = Some 20) /\
  (forall items, M_config.get (s_ "confounding_effects") user = Some (Dict items) -> confounders_of config = Some (map fst items)).
Proof.
  unfold load_config_simulation. destruct (existsb _ _) eqn:E; [discriminate|]. intros H. injection H as H.
  assert (G : forall k, M_config.get k config = sd_merge (M_config.get k user) (M_config.get k default_config)).
  { intros k. rewrite <- H. apply set_defaults_get, default_keys. }
  assert (NR : forall k, M_config.get k config <> Some (Leaf M_simrun.required)).
  { intros k K. apply top_items in K. rewrite <- H in K. assert (X : existsb (fun '(_, x, _) => is_required x) (iter_items_recursive (set_defaults user default_config)) = true); [|congruence].
    apply existsb_exists. eexists. split; [exact K|]. reflexivity. }
  conj.
  - intros k K. specialize (G k). specialize (NR k).
    assert (D : M_config.get k default_config = Some (Leaf M_simrun.required)) by (simpl in K; decompose [or] K; try contradiction; subst k; reflexivity).
    rewrite D in G. destruct (M_config.get k user) as [t|]; [|cbn in G; congruence]. exists t.
    assert (GT : M_config.get k config = Some t) by (rewrite G; destruct t; reflexivity). conj; auto. congruence.
  - intros q Q. rewrite G, Q. reflexivity.
  - intros n Q. unfold n_features_of. rewrite G, Q. cbn [sd_merge M_config.get default_config]. cbn. destruct (Z.leb_spec 0 (Z.of_nat n)); [|lia]. rewrite Nat2Z.id. reflexivity.
  - intros Q. unfold n_features_of. rewrite G, Q. reflexivity.
  - intros items Q. unfold confounders_of. rewrite G, Q. reflexivity.
Qed.
Print Assumptions C91_config.

(** If the user gives fractions for two, three and four states, the fractions are those of the user.  Missing for the full
    statement: other keys, for which it is false (below). *)
Theorem C91_user_partial user config items : load_config_simulation user = Some config ->
  M_config.get (s_ "n_states") user = Some (Dict items) ->
  (forall k, In k (map s_ ["2"; "3"; "4"]%string) -> M_config.get k items <> None) ->
  M_config.get (s_ "n_states") config = Some (Dict items).
Proof.
  unfold load_config_simulation. destruct (existsb _ _); [discriminate|]. intros H U K. injection H as <-.
  rewrite (set_defaults_get _ user default_keys), U. cbn [sd_merge default_config M_config.get].
  change (Some (Dict (set_defaults items [(s_ "2", Leaf (Num (4 # 10))); (s_ "3", Leaf (Num (3 # 10))); (s_ "4", Leaf (Num (3 # 10)))])) = Some (Dict items)).
  unfold set_defaults. rewrite sd_unfold. f_equal. f_equal.
  assert (ST : forall k q, In k (map s_ ["2"; "3"; "4"]%string) -> sd_step k (Leaf (Num q)) items = items).
  { intros k q I. specialize (K k I). unfold sd_step. destruct (M_config.get k items) as [[x|c]|]; auto. congruence. }
  cbn [sd_loop]. rewrite (ST (s_ "2")), (ST (s_ "3")), (ST (s_ "4")); auto; simpl; tauto.
Qed.
Print Assumptions C91_user_partial.

(** * Cases *)
Definition demo_int_of (x : str) : option nat :=
  if str_eqb x (s_ "2") then Some 2 else if str_eqb x (s_ "3") then Some 3 else if str_eqb x (s_ "4") then Some 4 else None.
Definition demo_user (more : dict M_simrun.setting) : dict M_simrun.setting :=
  more ++ [(s_ "canvas", Leaf (Text (s_ "canvas.csv"))); (s_ "cluster_effect", Dict [(s_ "intensity", Leaf (Num 1))]);
    (s_ "confounding_effects", Dict [(s_ "family", Dict [(s_ "intensity", Leaf (Num 1))])])].
Definition demo_items : list (str * tree M_simrun.setting) :=
  [(s_ "3", Leaf (Num (1 # 2))); (s_ "2", Leaf (Num (1 # 2))); (s_ "4", Leaf (Num 0))].
Definition demo_settings : dict M_simrun.setting := demo_user [(s_ "n_features", Leaf (Num 2)); (s_ "n_states", Dict demo_items)].
Definition demo_draws : draws := {| dr_picks := []; dr_shuffle := [1; 0]; dr_weights := [[1 # 4; 3 # 4]; [1 # 2; 1 # 2]]%Q;
  dr_probs := fun c g f => match f with 0 => [1 # 3; 2 # 3]%Q | _ => match c with 0 => [1 # 5; 0; 4 # 5]%Q | _ => [0; 1; 0]%Q end end;
  dr_uniform := fun f o => match o with 0 => 3 # 4 | _ => 1 # 4 end |}.
Definition demo_run (user : dict M_simrun.setting) (dr : draws) : option simulation :=
  match load_config_simulation user with
  | Some config => run_simulation demo_parse demo_int demo_int_of config demo_canvas dr
  | None => None
  end.
Example C91_case : exists config sm,
  load_config_simulation demo_settings = Some config /\ M_config.get (s_ "n_states") config = Some (Dict demo_items) /\
  run_simulation demo_parse demo_int demo_int_of config demo_canvas demo_draws = Some sm /\
  rectangular demo_canvas /\ n_states_of demo_int_of config = Some [(3, 1 # 2); (2, 1 # 2); (4, 0%Q)] /\
  possible 2 [(3, 1 # 2); (2, 1 # 2); (4, 0%Q)] (dr_picks demo_draws) (dr_shuffle demo_draws) /\ fair sm demo_draws /\
  sm_n sm = 2 /\ sm_states sm = [2; 3] /\ sm_features sm = [[1; 2]; [0; 1]] /\ confounders_of config = Some [s_ "family"] /\
  sm_sites sm = demo_sites "Aymara 1" "Bora".
Proof.
  eexists. eexists. split; [vm_compute; reflexivity|]. split; [vm_compute; reflexivity|]. split; [vm_compute; reflexivity|].
  split; [split; [discriminate|vm_compute; repeat constructor]|]. split; [vm_compute; reflexivity|].
  split; [|split; [|conj; reflexivity]].
  - unfold possible. conj; [reflexivity|constructor|]. vm_compute. apply perm_swap.
  - unfold fair. cbn [sm_n sm_states sm_sites si_confounders]. conj.
    + reflexivity.
    + repeat constructor.
    + intros c g [|[|f]] F; [| |cbn in F; lia]; cbn [demo_draws dr_probs nth].
      * unfold simplex_point. conj; try reflexivity. repeat constructor; discriminate.
      * destruct c; unfold simplex_point; conj; try reflexivity; repeat constructor; discriminate.
    + intros f [|o]; split; cbn [demo_draws dr_uniform]; try discriminate; reflexivity.
Qed.

(** * Refuted: the fractions of the user *)
(** The default fractions of three and four states are added to the fractions of the user: with two states for all
    features, features with four states are simulated. *)
Definition wide_draws : draws := {| dr_picks := []; dr_shuffle := rev (seq 0 32); dr_weights := repeat [1 # 2; 1 # 2]%Q 20;
  dr_probs := fun c g f => match f with 0 | 1 | 2 | 3 | 4 | 5 => [0; 0; 0; 1]%Q | 6 | 7 | 8 | 9 | 10 | 11 => [1; 0; 0]%Q | _ => [1; 0]%Q end;
  dr_uniform := fun f o => 1 # 2 |}.
Theorem C91_user_refuted : exists user config ns sm,
  M_config.get (s_ "n_states") user = Some (Dict [(s_ "2", Leaf (Num 1))]) /\ load_config_simulation user = Some config /\
  n_states_of demo_int_of config = Some ns /\ possible (sm_n sm) ns (dr_picks wide_draws) (dr_shuffle wide_draws) /\ fair sm wide_draws /\
  run_simulation demo_parse demo_int demo_int_of config demo_canvas wide_draws = Some sm /\
  sm_n sm = 20 /\ nth 0 (sm_states sm) 0 = 4 /\ map (fun row => nth 0 row 0) (sm_features sm) = [3; 3].
Proof.
  exists (demo_user [(s_ "n_states", Dict [(s_ "2", Leaf (Num 1))])]). eexists. exists [(2, 1%Q); (3, 3 # 10); (4, 3 # 10)]. eexists.
  split; [reflexivity|]. split; [vm_compute; reflexivity|]. split; [vm_compute; reflexivity|].
  assert (X : forall A B C : Prop, C -> A -> B -> A /\ B /\ C) by tauto. apply X; clear X.
  - split; [vm_compute; reflexivity|]. vm_compute. auto.
  - unfold possible. conj; [reflexivity|constructor|]. cbn [sm_n]. change (dr_shuffle wide_draws) with (rev (seq 0 32)).
    match goal with |- Permutation _ (seq 0 ?n) => change n with 32 end. symmetry. apply Permutation_rev.
  - unfold fair. cbn [sm_n sm_states sm_sites si_confounders]. conj.
    + reflexivity.
    + apply Forall_forall. intros w W. apply repeat_spec in W. subst w. split; [reflexivity|repeat constructor].
    + intros c g f F. do 20 (destruct f as [|f]; [unfold simplex_point; conj; try reflexivity; repeat constructor; discriminate|]). lia.
    + intros f o. split; [discriminate|reflexivity].
Qed.
Print Assumptions C91_user_refuted.
(** With two features and the default fractions no simulation is possible at all. *)
Theorem C91_few_refuted : exists user config, load_config_simulation user = Some config /\ n_features_of config = Some 2 /\
  forall parse parse_int rows dr, run_simulation parse parse_int demo_int_of config rows dr = None.
Proof.
  exists (demo_user [(s_ "n_features", Leaf (Num 2))]). eexists. split; [vm_compute; reflexivity|]. split; [reflexivity|].
  intros parse parse_int rows dr. unfold run_simulation.
  match goal with |- context [n_states_of demo_int_of ?c] => change (n_states_of demo_int_of c) with (Some [(2, 4 # 10); (3, 3 # 10); (4, 3 # 10)]);
    change (n_features_of c) with (Some 2); change (confounders_of c) with (Some [s_ "family"]) end.
  cbn match. destruct (load_canvas _ _ _ _) ; reflexivity.
Qed.
Print Assumptions C91_few_refuted.
(** States that were not drawn are lost in the files. *)
Theorem C91_read_back_refuted : exists config sm d,
  load_config_simulation demo_settings = Some config /\ run_simulation demo_parse demo_int demo_int_of config demo_canvas demo_draws = Some sm /\
  read_features_from_csv demo_na demo_parse (features_csv demo_show (sm_sites sm) (sm_n sm) (sm_features sm))
      (feature_states_csv (fun l => rev (nodup Nat.eq_dec l)) (sm_n sm) (sm_features sm)) demo_groups = Some d /\
  nth 1 (sm_states sm) 0 = 3 /\ applicable d 1 = 2.
Proof. do 3 eexists. split; [vm_compute; reflexivity|]. split; [vm_compute; reflexivity|]. split; [vm_compute; reflexivity|]. split; vm_compute; reflexivity. Qed.
Print Assumptions C91_read_back_refuted.
