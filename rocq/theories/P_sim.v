(** C53: simulated features follow the mixture. *)
From Coq Require Import Lqa.
From Verif Require Import M_sim L_data S_model L_model.
From Verif Require L_params.
Set Implicit Arguments.
Unset Strict Implicit.
Open Scope nat_scope.

(** * Memberships *)
Lemma insert_z_In x y l : In x (insert_z y l) <-> x = y \/ In x l.
Proof.
  induction l as [|z l IH]; simpl; [intuition|]. destruct (Z.compare_spec y z); simpl.
  - subst z. intuition.
  - intuition.
  - rewrite IH. intuition.
Qed.
Lemma unique_z_In x l : In x (unique_z l) <-> In x l.
Proof. unfold unique_z. induction l as [|y l IH]; simpl; [tauto|]. rewrite insert_z_In, IH. intuition. Qed.
Lemma insert_z_sorted y l : StronglySorted Z.lt l -> StronglySorted Z.lt (insert_z y l).
Proof.
  induction 1 as [|z l HS IH HF]; simpl; [repeat constructor|]. destruct (Z.compare_spec y z).
  - constructor; auto.
  - constructor; [constructor; auto|]. constructor; auto. eapply Forall_impl; [|exact HF]. intros w Hw. lia.
  - constructor; auto. apply Forall_forall. intros w Hw. apply insert_z_In in Hw. rewrite Forall_forall in HF. destruct Hw as [->|Hw]; [lia|auto].
Qed.
Lemma unique_z_NoDup l : NoDup (unique_z l).
Proof.
  assert (H : StronglySorted Z.lt (unique_z l)) by (unfold unique_z; induction l; simpl; [constructor|apply insert_z_sorted; auto]).
  induction H as [|z r HS IH HF]; constructor; auto. intros Hin. rewrite Forall_forall in HF. specialize (HF z Hin). lia.
Qed.
(** Specification: object [o] is in group [g] only; in no group. *)
Definition in_only (groups : bmat) (o g : nat) : Prop := forall g', nth o (nth g' groups []) false = true <-> g' = g.
Definition in_none (groups : bmat) (o : nat) : Prop := forall g, nth o (nth g groups []) false = false.
Lemma groups_by_label K (eqb : K -> K -> bool) (names labels : list K) : (forall a b, eqb a b = true <-> a = b) -> NoDup names ->
  forall o x, nth_error labels o = Some x ->
  (forall g, nth_error names g = Some x -> in_only (map (fun n => map (eqb n) labels) names) o g) /\
  (~ In x names -> in_none (map (fun n => map (eqb n) labels) names) o).
Proof.
  intros Heq HN o x Ho.
  assert (Hv : forall g', nth o (nth g' (map (fun n => map (eqb n) labels) names) []) false = match nth_error names g' with Some n => eqb n x | None => false end).
  { intros g'. destruct (nth_error names g') as [n|] eqn:E.
    - rewrite (nth_error_nth _ g' [] (map_nth_error _ g' names E)). apply nth_error_nth, map_nth_error, Ho.
    - apply nth_error_None in E. rewrite (nth_overflow (map _ names)) by (rewrite map_length; auto). destruct o; reflexivity. }
  split.
  - intros g Hg g'. rewrite Hv. split.
    + destruct (nth_error names g') as [n|] eqn:E; [|discriminate]. intros H. apply Heq in H. subst n.
      apply (proj1 (NoDup_nth_error names) HN); [apply nth_error_Some_lt in E; exact E|congruence].
    + intros ->. rewrite Hg. apply Heq. reflexivity.
  - intros Hx g. rewrite Hv. destruct (nth_error names g) as [n|] eqn:E; auto. destruct (eqb n x) eqn:E'; auto.
    apply Heq in E'. subst n. apply nth_error_In in E. contradiction.
Qed.
(** Clusters: labels other than 0 name the cluster, 0 means none. *)
Theorem C53_clusters labels o z : nth_error labels o = Some z ->
  (z <> 0%Z -> exists g, nth_error (unique_z (filter (fun z => negb (Z.eqb z 0)) labels)) g = Some z /\ in_only (assign_to_cluster labels) o g) /\
  (z = 0%Z -> in_none (assign_to_cluster labels) o).
Proof.
  intros Ho. set (names := unique_z (filter (fun z => negb (Z.eqb z 0)) labels)).
  destruct (@groups_by_label _ Z.eqb names labels Z.eqb_eq (unique_z_NoDup _) o z Ho) as (H1 & H2).
  split.
  - intros Hz. assert (Hin : In z names).
    { apply unique_z_In, filter_In. split; [eapply nth_error_In; eauto|]. apply Z.eqb_neq in Hz. rewrite Hz. reflexivity. }
    apply In_nth_error in Hin. destruct Hin as (g & Hg). exists g. split; [exact Hg|apply H1, Hg].
  - intros ->. apply H2. intros Hin. apply unique_z_In, filter_In in Hin. destruct Hin as (_ & H). discriminate.
Qed.
Print Assumptions C53_clusters.
(** Confounders: every object is in the group of its label. *)
Theorem C53_confounders labels o x : nth_error labels o = Some x ->
  exists g, nth_error (sorted_set labels) g = Some x /\ in_only (assign_to_confounder labels) o g.
Proof.
  intros Ho. destruct (@groups_by_label _ str_eqb (sorted_set labels) labels str_eqb_eq (increasing_NoDup (sorted_set_increasing _)) o x Ho) as (H1 & _).
  assert (Hin : In x (sorted_set labels)) by (apply sorted_set_In; eapply nth_error_In; eauto).
  apply In_nth_error in Hin. destruct Hin as (g & Hg). exists g. split; [exact Hg|apply H1, Hg].
Qed.
Print Assumptions C53_confounders.
(** ... also objects whose cell is empty: they share the group "0". *)
Theorem C53_missing_group : exists labels o o' g, nth_error labels o = Some (s_ "0") /\ o <> o' /\
  in_only (assign_to_confounder labels) o g /\ in_only (assign_to_confounder labels) o' g.
Proof.
  exists [s_ "0"; s_ "a"; s_ "0"], 0, 2, 0. conj; auto.
  - destruct (@C53_confounders [s_ "0"; s_ "a"; s_ "0"] 0 (s_ "0") eq_refl) as (g & Hg & H). destruct g as [|[|g]]; try discriminate Hg; auto. destruct g; discriminate Hg.
  - destruct (@C53_confounders [s_ "0"; s_ "a"; s_ "0"] 2 (s_ "0") eq_refl) as (g & Hg & H). destruct g as [|[|g]]; try discriminate Hg; auto. destruct g; discriminate Hg.
Qed.
Print Assumptions C53_missing_group.

(** * The distribution *)
(** The effect of the group that contains the object, at state [s]. *)
Definition member_effect (f o s : nat) (c : bmat * list effect) (q : Q) : Prop :=
  (exists g, in_only (fst c) o g /\ q = nth s (nth f (nth g (snd c) []) []) 0%Q) \/ (in_none (fst c) o /\ q = 0%Q).
Definition prob_vector (n : nat) (p : list Q) : Prop := length p = n /\ Forall (fun q => (0 <= q)%Q) p /\ (Qsum p == 1)%Q.
(** A well-formed component: groups do not overlap at [o], one effect per group, rows are distributions. *)
Definition component_ok (n_states f o : nat) (c : bmat * list effect) : Prop :=
  length (fst c) = length (snd c) /\ ((exists g, in_only (fst c) o g) \/ in_none (fst c) o) /\
  Forall (fun p : effect => prob_vector n_states (nth f p [])) (snd c).

Lemma Qsum_map_if {A} (l : list A) (F : A -> Q) : (forall x, In x l -> (F x == 0)%Q) -> (Qsum (map F l) == 0)%Q.
Proof. induction l; intros H; simpl; [reflexivity|]. rewrite (H a (or_introl eq_refl)), IHl; [ring|]. intros x Hx. apply H. right; auto. Qed.
Lemma dot_none (groups : bmat) : forall (probs : list effect) o f s, in_none groups o ->
  (Qsum (map2 (fun g (p : effect) => if nth o g false then nth s (nth f p []) 0 else 0) groups probs) == 0)%Q.
Proof.
  induction groups as [|g r IH]; intros [|p probs] o f s H; simpl; try reflexivity.
  assert (H0 := H 0). simpl in H0. rewrite H0. rewrite IH; [ring|]. intros i. apply (H (S i)).
Qed.
Lemma dot_only (groups : bmat) : forall (probs : list effect) o f s g, in_only groups o g -> g < length probs -> length groups = length probs ->
  (Qsum (map2 (fun g (p : effect) => if nth o g false then nth s (nth f p []) 0 else 0) groups probs) == nth s (nth f (nth g probs []) []) 0)%Q.
Proof.
  induction groups as [|gr r IH]; intros [|p probs] o f s g H Hg Hl; simpl in *; try lia. destruct g as [|g].
  - assert (H0 := proj2 (H 0) eq_refl). simpl in H0. rewrite H0. rewrite dot_none; [ring|]. intros i. destruct (nth o (nth i r []) false) eqn:E; auto.
    assert (E' : S i = 0) by (apply H; exact E). discriminate.
  - destruct (nth o gr false) eqn:E; [assert (E' : 0 = S g) by (apply H; exact E); discriminate|].
    rewrite (IH probs o f s g); [ring| |lia|lia]. intros i. split.
    + intros Hi. assert (E' : S i = S g) by (apply H; exact Hi). lia.
    + intros ->. apply (proj2 (H (S g)) eq_refl).
Qed.
Lemma in_only_lt (groups : bmat) o g : in_only groups o g -> g < length groups.
Proof.
  intros H. destruct (Nat.lt_ge_cases g (length groups)) as [|Hge]; auto. assert (Ht := proj2 (H g) eq_refl).
  rewrite (nth_overflow groups) in Ht by auto. destruct o; discriminate.
Qed.
Lemma any_group_only (groups : bmat) o g : in_only groups o g -> any_group groups o = true.
Proof.
  intros H. unfold any_group. apply existsb_exists. exists (nth g groups []). split; [apply nth_In, (in_only_lt H)|apply H; reflexivity].
Qed.
Lemma any_group_none (groups : bmat) o : in_none groups o -> any_group groups o = false.
Proof.
  intros H. destruct (any_group groups o) eqn:E; auto. unfold any_group in E. apply existsb_exists in E. destruct E as (g & Hg & Hv).
  apply In_nth with (d := []) in Hg. destruct Hg as (i & _ & <-). rewrite H in Hv. discriminate.
Qed.
Lemma nth_sim_component n groups probs f o s : s < n ->
  nth s (sim_component n groups probs f o) 0%Q = Qsum (map2 (fun g (p : effect) => if nth o g false then nth s (nth f p []) 0 else 0)%Q groups probs).
Proof.
  intros Hs. unfold sim_component. apply nth_error_nth.
  apply (map_nth_error (fun s => Qsum (map2 (fun g (p : effect) => if nth o g false then nth s (nth f p []) 0 else 0)%Q groups probs))).
  rewrite nth_error_nth' with (d := 0) by (rewrite seq_length; auto). rewrite seq_nth by auto. reflexivity.
Qed.
Lemma component_value n f o c s : component_ok n f o c -> s < n ->
  exists q, member_effect f o s c q /\ (nth s (sim_component n (fst c) (snd c) f o) 0 == q)%Q.
Proof.
  intros (Hl & [(g & Hg)|Hn] & HF) Hs; rewrite nth_sim_component by auto.
  - eexists. split; [left; exists g; split; [exact Hg|reflexivity]|]. apply dot_only; auto. rewrite <- Hl. apply (in_only_lt Hg).
  - exists 0%Q. split; [right; auto|]. apply dot_none, Hn.
Qed.
Lemma Qsum_swap {A} (n : nat) (l : list A) (F : A -> nat -> Q) :
  (Qsum (map (fun s => Qsum (map (fun a => F a s) l)) (seq 0 n)) == Qsum (map (fun a => Qsum (map (F a) (seq 0 n))) l))%Q.
Proof.
  induction l as [|a l IH]; simpl.
  - apply Qsum_map_if. reflexivity.
  - rewrite <- IH. clear IH. generalize (seq 0 n). intros ss. induction ss as [|s ss IHs]; simpl; [ring|]. rewrite IHs. ring.
Qed.
Lemma Qsum_scale (c : Q) l : (Qsum (map (fun x => c * x) l) == c * Qsum l)%Q.
Proof. induction l; simpl; [ring|]. rewrite IHl. ring. Qed.
Lemma Qsum_map_eq {A} (l : list A) (F G : A -> Q) : (forall x, In x l -> (F x == G x)%Q) -> (Qsum (map F l) == Qsum (map G l))%Q.
Proof. induction l; intros H; simpl; [reflexivity|]. rewrite (H a (or_introl eq_refl)), IHl; [reflexivity|]. intros x Hx. apply H. right; auto. Qed.
Lemma map_seq_nth (l : list Q) : map (fun s => nth s l 0%Q) (seq 0 (length l)) = l.
Proof. induction l as [|x l IH]; simpl; auto. f_equal. rewrite <- seq_shift, map_map. exact IH. Qed.
Lemma map2_combine A B C (F : A -> B -> C) l r : map2 F l r = map (fun p => F (fst p) (snd p)) (combine l r).
Proof. revert r; induction l as [|a l IH]; intros [|b r]; simpl; auto. rewrite IH. reflexivity. Qed.

(** For all memberships without overlap: the distribution is a probability vector, the mixture of the effects
    of the groups the object belongs to, with the weights renormalised over the components that contain it. *)
Theorem C53_mixture n_states weights comps f o w : nth_error weights f = Some w -> Forall (fun q => (0 < q)%Q) w -> length w = length comps ->
  Forall (component_ok n_states f o) comps ->
  (exists c g, In c comps /\ in_only (fst c) o g) ->
  exists p r, sim_dist n_states weights comps f o = Some p /\ prob_vector n_states p /\
    available_distribution w (map (fun c => any_group (fst c) o) comps) r /\
    forall s, s < n_states -> exists qs, Forall2 (member_effect f o s) comps qs /\ (nth s p 0 == Qsum (map2 Qmult r qs))%Q.
Proof.
  intros Hw Hpos Hlen Hok (c0 & g0 & Hc0 & Hg0). unfold sim_dist. rewrite (nth_error_nth weights f [] Hw).
  set (has := map (fun c => any_group (fst c) o) comps). assert (Hhl : length has = length w) by (unfold has; rewrite map_length; auto).
  destruct (normalize_row w has) as [r|] eqn:En.
  2:{ exfalso. apply In_nth_error in Hc0. destruct Hc0 as (i & Hi).
      apply (proj1 (normalize_row_defined Hpos Hhl) En i). unfold has. rewrite nth_error_map, Hi. simpl. f_equal. eapply any_group_only; eauto. }
  assert (Hd := normalize_row_distribution Hpos Hhl En). destruct Hd as (Hrl & Hrn & Hrs & Hra & Hrp).
  set (p := map _ (seq 0 n_states)). exists p, r.
  assert (Hp : forall s, s < n_states -> nth s p 0%Q = Qsum (map2 (fun w c => (w * nth s (sim_component n_states (fst c) (snd c) f o) 0)%Q) r comps)).
  { intros s Hs. unfold p. apply nth_error_nth.
    apply (map_nth_error (fun s => Qsum (map2 (fun w c => (w * nth s (sim_component n_states (fst c) (snd c) f o) 0)%Q) r comps))).
    rewrite nth_error_nth' with (d := 0) by (rewrite seq_length; auto). rewrite seq_nth by auto. reflexivity. }
  assert (Hmix : forall s, s < n_states -> exists qs, Forall2 (member_effect f o s) comps qs /\ (nth s p 0 == Qsum (map2 Qmult r qs))%Q).
  { intros s Hs. rewrite (Hp s Hs). clear -Hok Hs Hrl Hlen. assert (Hl : length r = length comps) by lia. clear Hrl Hlen.
    revert r Hl. induction Hok as [|c cs Hc Hcs IH]; intros [|a r] Hl; simpl in *; try lia.
    - exists []. split; [constructor|reflexivity].
    - destruct (IH r ltac:(lia)) as (qs & Hqs & E). destruct (component_value Hc Hs) as (q & Hq & Eq). exists (q :: qs).
      split; [constructor; auto|]. simpl. rewrite E, Eq. reflexivity. }
  conj; auto; [|unfold available_distribution; conj; auto].
  unfold prob_vector. assert (Hpl : length p = n_states) by (unfold p; rewrite map_length, seq_length; auto). conj; auto.
  - (* non-negative *)
    apply Forall_forall. intros q Hq. apply In_nth_error in Hq. destruct Hq as (s & Hs).
    assert (Hlt : s < n_states) by (apply nth_error_Some_lt in Hs; lia). destruct (Hmix s Hlt) as (qs & Hqs & E).
    rewrite (nth_error_nth p s 0%Q Hs) in E. rewrite E. clear -Hqs Hrn Hok.
    revert r Hrn. induction Hqs as [|c q' cs qs Hc Hcs IH]; intros [|a r] Hrn; simpl; try apply Qle_refl.
    inversion Hrn; subst. inversion Hok as [|? ? (Hl & _ & HF) Hok']; subst.
    assert (0 <= q')%Q.
    { destruct Hc as [(g & Hg & ->)|(_ & ->)]; [|apply Qle_refl]. destruct (nth_in_or_default s (nth f (nth g (snd c) []) []) 0%Q) as [Hin|E]; [|rewrite E; apply Qle_refl].
      assert (Hg' : In (nth g (snd c) []) (snd c)) by (apply nth_In; rewrite <- Hl; eapply in_only_lt; eauto).
      rewrite Forall_forall in HF. destruct (HF _ Hg') as (_ & Hnn & _). rewrite Forall_forall in Hnn. apply Hnn, Hin. }
    assert (0 <= a * q')%Q by (apply Qmult_le_0_compat; auto). specialize (IH Hok' r ltac:(auto)). simpl in *. lra.
  - (* sums to one *)
    rewrite <- (map_seq_nth p), Hpl.
    rewrite (@Qsum_map_eq _ _ _ (fun s => Qsum (map (fun wc => fst wc * nth s (sim_component n_states (fst (snd wc)) (snd (snd wc)) f o) 0) (combine r comps)))%Q).
    2:{ intros s Hs. apply in_seq in Hs. rewrite (Hp s) by lia. rewrite map2_combine. reflexivity. }
    rewrite Qsum_swap.
    rewrite (@Qsum_map_eq _ _ _ (fun wc => fst wc)).
    + assert (E : map (fun wc : Q * (bmat * list effect) => fst wc) (combine r comps) = r).
      { clear -Hrl Hlen. assert (Hl : length r = length comps) by lia. clear Hrl Hlen. revert comps Hl. induction r; intros [|c cs] Hl; simpl in *; try lia; auto. f_equal. apply IHr. lia. }
      rewrite E. exact Hrs.
    + intros (a, c) Hin. cbn [fst snd].
      assert (Hc : In c comps) by (eapply in_combine_r; eauto).
      rewrite Forall_forall in Hok. destruct (Hok c Hc) as (Hl & Hcase & HF).
      rewrite <- (map_map (fun s => nth s (sim_component n_states (fst c) (snd c) f o) 0%Q) (fun x => a * x)%Q), Qsum_scale.
      destruct Hcase as [(g & Hg)|Hn].
      * rewrite (@Qsum_map_eq _ _ _ (fun s => nth s (nth f (nth g (snd c) []) []) 0%Q)).
        -- assert (Hg' : In (nth g (snd c) []) (snd c)) by (apply nth_In; rewrite <- Hl; eapply in_only_lt; eauto).
           rewrite Forall_forall in HF. destruct (HF _ Hg') as (Hsl & _ & Hs1). rewrite <- Hsl, map_seq_nth, Hs1. ring.
        -- intros s Hs. apply in_seq in Hs. rewrite nth_sim_component by lia. apply dot_only; auto. rewrite <- Hl. eapply in_only_lt; eauto.
      * assert (Ha : (a == 0)%Q).
        { apply In_nth_error in Hin. destruct Hin as (i & Hi).
          assert (Hi1 : nth_error r i = Some a /\ nth_error comps i = Some c).
          { clear -Hi. revert comps i Hi. induction r as [|b r IH]; intros [|d cs] [|i] Hi; simpl in *; try discriminate; auto. injection Hi as -> ->. auto. }
          destruct Hi1 as (Hi1 & Hi2). apply (Hra i a false Hi1); auto. unfold has. rewrite nth_error_map, Hi2. simpl. f_equal. apply any_group_none, Hn. }
        rewrite Ha. ring.
Qed.
Print Assumptions C53_mixture.

(** The state itself: state [s] is drawn exactly for the uniform draws in an interval as long as its mixture probability. *)
Theorem C53_drawn n_states weights comps f o w : nth_error weights f = Some w -> Forall (fun q => (0 < q)%Q) w -> length w = length comps ->
  Forall (component_ok n_states f o) comps ->
  (exists c g, In c comps /\ in_only (fst c) o g) ->
  exists r, available_distribution w (map (fun c => any_group (fst c) o) comps) r /\
    forall s, s < n_states -> exists a b qs, Forall2 (member_effect f o s) comps qs /\ (b - a == Qsum (map2 Qmult r qs))%Q /\ (0 <= a)%Q /\ (b <= 1)%Q /\
      forall z, (0 <= z)%Q -> (z < 1)%Q -> sim_feature n_states weights comps z f o = s <-> (a <= z < b)%Q.
Proof.
  intros W P L C A. destruct (C53_mixture W P L C A) as (p & r & SD & (P1 & P2 & P3) & AV & MI). exists r. split; [exact AV|]. intros s S.
  destruct (MI s S) as (qs & F2 & E). exists (Qsum (firstn s p)), (Qsum (firstn (Datatypes.S s) p)), qs. split; [exact F2|].
  assert (NN : forall l, Forall (fun q => (0 <= q)%Q) l -> (0 <= Qsum l)%Q). { induction l as [|x l IH]; intros H; inversion H; subst; unfold Qsum in *; simpl; [lra|]. specialize (IH H3). lra. }
  assert (AP : forall a b, (Qsum (a ++ b) == Qsum a + Qsum b)%Q). { induction a as [|x a IH]; intros b; unfold Qsum in *; simpl; [lra|]. rewrite IH. lra. }
  assert (PT : forall k, Forall (fun q => (0 <= q)%Q) (firstn k p) /\ Forall (fun q => (0 <= q)%Q) (skipn k p)). { intros k. apply Forall_app. rewrite firstn_skipn. exact P2. }
  split; [|split; [|split]].
  - rewrite <- E. clear -AP. revert s. induction p as [|x p IH]; intros s; [rewrite !firstn_nil; destruct s; reflexivity|].
    destruct s; [unfold Qsum; simpl; ring|]. specialize (IH s). change (firstn (Datatypes.S (Datatypes.S s)) (x :: p)) with (x :: firstn (Datatypes.S s) p).
    change (firstn (Datatypes.S s) (x :: p)) with (x :: firstn s p). cbn [nth]. rewrite <- IH. unfold Qsum. simpl fold_right. ring.
  - apply NN, PT.
  - pose proof (AP (firstn (Datatypes.S s) p) (skipn (Datatypes.S s) p)) as Q. rewrite firstn_skipn, P3 in Q. pose proof (NN _ (proj2 (PT (Datatypes.S s)))). lra.
  - intros z Z0 Z1. unfold sim_feature. rewrite SD. rewrite (@L_params.categorical_spec p z P2 P3 Z0 Z1 s). rewrite P1. intuition.
Qed.
Print Assumptions C53_drawn.

(** For the memberships built by the code: defined for every object as soon as there is a confounder, or for
    objects in a cluster.  Missing for the full statement: objects outside all clusters in simulations without
    confounders, for which it is false. *)
Theorem C53_simulation_partial n_states weights cl_labels cl_effect conf_labels conf_effects f o w n :
  nth_error weights f = Some w -> Forall (fun q => (0 < q)%Q) w -> length w = S (length conf_labels) ->
  length cl_labels = n -> Forall (fun l : list str => length l = n) conf_labels -> o < n ->
  let comps := combine (assign_to_cluster cl_labels :: map assign_to_confounder conf_labels) (cl_effect :: conf_effects) in
  length conf_effects = length conf_labels ->
  Forall (fun c => length (fst c) = length (snd c) /\ Forall (fun p : effect => prob_vector n_states (nth f p [])) (snd c)) comps ->
  (conf_labels <> [] \/ nth o cl_labels 0%Z <> 0%Z) ->
  exists p r, sim_dist n_states weights comps f o = Some p /\ prob_vector n_states p /\
    available_distribution w (map (fun c => any_group (fst c) o) comps) r /\
    forall s, s < n_states -> exists qs, Forall2 (member_effect f o s) comps qs /\ (nth s p 0 == Qsum (map2 Qmult r qs))%Q.
Proof.
  intros Hw Hpos Hlw Hcl Hcf Ho comps Hce HF Hsome.
  destruct (nth_error cl_labels o) as [z|] eqn:Ez; [|apply nth_error_None in Ez; lia].
  assert (Hconf : forall ls, In ls conf_labels -> exists g, in_only (assign_to_confounder ls) o g).
  { intros ls Hls. rewrite Forall_forall in Hcf. assert (Hlen := Hcf ls Hls). destruct (nth_error ls o) as [x|] eqn:Ex; [|apply nth_error_None in Ex; lia].
    destruct (C53_confounders Ex) as (g & _ & Hg). eauto. }
  destruct (C53_clusters Ez) as (Hz1 & Hz2).
  apply C53_mixture with (w := w); auto.
  - rewrite Hlw. unfold comps. rewrite combine_length. cbn [length]. rewrite map_length. lia.
  - apply Forall_forall. intros c Hc. rewrite Forall_forall in HF. destruct (HF c Hc) as (Hl & Hp). unfold component_ok. conj; auto.
    unfold comps in Hc. destruct c as (gs, ps). apply in_combine_l in Hc. cbn [fst]. destruct Hc as [<-|Hc].
    + destruct (Z.eq_dec z 0) as [->|Hne]; [right; auto|]. left. destruct (Hz1 Hne) as (g & _ & Hg). eauto.
    + apply in_map_iff in Hc. destruct Hc as (ls & <- & Hls). left. auto.
  - destruct Hsome as [Hne|Hne].
    + destruct conf_labels as [|ls rest]; [congruence|]. destruct conf_effects as [|ce ces]; [simpl in Hce; lia|].
      destruct (Hconf ls (or_introl eq_refl)) as (g & Hg). exists (assign_to_confounder ls, ce), g. split; auto. right. left. reflexivity.
    + rewrite (nth_error_nth cl_labels o 0%Z Ez) in Hne. destruct (Hz1 Hne) as (g & _ & Hg).
      exists (assign_to_cluster cl_labels, cl_effect), g. split; auto. left. reflexivity.
Qed.
Print Assumptions C53_simulation_partial.

(** Without confounders, objects outside all clusters have no distribution; state 0 is always drawn. *)
Theorem C53_refuted : exists n_states weights cl_labels cl_effect o,
  o < length cl_labels /\ Forall (Forall (fun q => (0 < q)%Q)) weights /\
  let comps := [(assign_to_cluster cl_labels, cl_effect)] in
  length (assign_to_cluster cl_labels) = length cl_effect /\
  Forall (fun p : effect => prob_vector n_states (nth 0 p [])) cl_effect /\
  sim_dist n_states weights comps 0 o = None /\ forall z, sim_feature n_states weights comps z 0 o = 0.
Proof.
  exists 2, [[1%Q]], [1; 0]%Z, [[[1#2; 1#2]%Q]], 1. cbv zeta. conj; try (vm_compute; reflexivity); auto.
  - repeat constructor; reflexivity.
  - constructor; [|constructor]. unfold prob_vector. simpl. conj; auto; [|reflexivity]. repeat constructor; unfold Qle; simpl; lia.
Qed.
Print Assumptions C53_refuted.
Example C53_demo : exists p, sim_dist 2 [[1#2; 1#2]%Q]
   (combine (assign_to_cluster [1; 0; 1]%Z :: map assign_to_confounder [[s_ "b"; s_ "0"; s_ "a"]]) [[[[1; 0]%Q]]; [[[0; 1]]; [[1#2; 1#2]]; [[1#4; 3#4]]]%Q]) 0 0 = Some p /\
  (nth 0 p 0 == 5#8)%Q /\ length (assign_to_confounder [s_ "b"; s_ "0"; s_ "a"]) = 3 /\ Forall (fun q => (0 < q)%Q) [1#2; 1#2]%Q.
Proof. eexists. conj; try (vm_compute; reflexivity). repeat constructor; reflexivity. Qed.
(** The draws of the same case: state 0 below 5/8, state 1 from there on. *)
Ltac in_one := let g := fresh in intros g; destruct g as [|[|[|g]]]; vm_compute; split; intros; try discriminate; try reflexivity; destruct g; discriminate.
Ltac vectors := repeat constructor; unfold Qle; simpl; lia.
Example C53_drawn_case : let comps := combine (assign_to_cluster [1; 0; 1]%Z :: map assign_to_confounder [[s_ "b"; s_ "0"; s_ "a"]]) [[[[1; 0]%Q]]; [[[0; 1]]; [[1#2; 1#2]]; [[1#4; 3#4]]]%Q] in
  Forall (component_ok 2 0 0) comps /\ (exists c g, In c comps /\ in_only (fst c) 0 g) /\
  map (fun z => sim_feature 2 [[1#2; 1#2]%Q] comps z 0 0) [0; 62#100; 5#8; 99#100]%Q = [0; 0; 1; 1].
Proof.
  cbv zeta. split; [|split; [|vm_compute; reflexivity]].
  - cbn [combine map]. constructor; [|constructor; [|constructor]].
    + split; [reflexivity|]. split; [left; exists 0; in_one|vectors].
    + split; [reflexivity|]. split; [left; exists 2; in_one|vectors].
  - eexists. exists 0. split; [left; reflexivity|]. cbn [fst]. in_one.
Qed.
