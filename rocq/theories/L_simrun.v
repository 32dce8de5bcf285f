(** Lemmas on simulations. *)
From Coq Require Import Lqa Permutation Qround.
From Verif Require Import L_cache M_simrun S_simrun S_simdata L_data L_text L_config L_plot L_simdata.
From Verif Require L_params L_contrib.
Set Implicit Arguments.
Unset Strict Implicit.
Open Scope nat_scope.

(** ** Numbers of states *)
Lemma count_floor n v : (0 <= v)%Q -> (times n v - 1 < inject_Z (Z.of_nat (count n v)))%Q /\ (inject_Z (Z.of_nat (count n v)) <= times n v)%Q.
Proof.
  intros H. unfold count, times. set (q := (inject_Z (Z.of_nat n) * v)%Q).
  assert (N : (0 <= q)%Q) by (unfold q; apply Qmult_le_0_compat; auto; rewrite <- (Zle_Qle 0); lia).
  assert (F : (0 <= Qfloor q)%Z) by (rewrite <- (Qfloor_Z 0); apply Qfloor_resp_le, N).
  rewrite Z2Nat.id by auto. split; [|apply Qfloor_le]. pose proof (Qlt_floor q) as L. rewrite inject_Z_plus in L.
  change (inject_Z 1) with 1%Q in L. lra.
Qed.
Lemma count_zero n v : count n v = 0 <-> (times n v < 1)%Q.
Proof.
  unfold count, times. set (q := (inject_Z (Z.of_nat n) * v)%Q). split.
  - intros H. pose proof (Qlt_floor q) as L. assert ((Qfloor q <= 0)%Z) as F by lia.
    rewrite Zle_Qle in F. rewrite inject_Z_plus in L. change (inject_Z 1) with 1%Q in L. change (inject_Z 0) with 0%Q in F. lra.
  - intros H. pose proof (Qfloor_le q) as L. assert ((Qfloor q < 1)%Z) as F by (rewrite Zlt_Qlt; change (inject_Z 1) with 1%Q; lra). lia.
Qed.
Lemma listed_In n ns k : In k (listed n ns) <-> exists v, In (k, v) ns /\ (1 <= times n v)%Q.
Proof.
  unfold listed. rewrite in_flat_map. split.
  - intros ((k', v) & I & R). pose proof (repeat_spec _ _ _ R) as E. subst k'. exists v. split; auto.
    destruct (Qlt_le_dec (times n v) 1) as [L|L]; auto. apply count_zero in L. rewrite L in R. destruct R.
  - intros (v & I & L). exists (k, v). split; auto. destruct (count n v) eqn:C; [apply count_zero in C; lra|]. left. reflexivity.
Qed.
Lemma count_app (a b : list nat) k : count_occ Nat.eq_dec (a ++ b) k = count_occ Nat.eq_dec a k + count_occ Nat.eq_dec b k.
Proof. apply count_occ_app. Qed.
Lemma count_repeat x k c : count_occ Nat.eq_dec (repeat x c) k = if Nat.eq_dec x k then c else 0.
Proof. induction c; simpl; destruct (Nat.eq_dec x k); auto. Qed.
Lemma count_listed n ns k v : NoDup (map fst ns) -> In (k, v) ns -> count_occ Nat.eq_dec (listed n ns) k = count n v.
Proof.
  induction ns as [|(k', v') ns IH]; intros N I; [destruct I|]. inversion_clear N as [|? ? A B]. cbn [listed flat_map]. rewrite count_app, count_repeat.
  fold (listed n ns). destruct I as [E|I].
  - injection E as -> ->. destruct (Nat.eq_dec k k); [|congruence].
    assert (Z0 : count_occ Nat.eq_dec (listed n ns) k = 0); [|lia]. apply count_occ_not_In. intros I. apply listed_In in I. destruct I as (w & I & _).
    apply A. change k with (fst (k, w)). apply in_map, I.
  - destruct (Nat.eq_dec k' k) as [E|E]; [|rewrite (IH B I); reflexivity]. subst k'. exfalso. apply A. change k with (fst (k, v)). apply in_map, I.
Qed.
Lemma listed_sum n ns : Forall (fun kv => (0 <= snd kv)%Q) ns ->
  (inject_Z (Z.of_nat (length (listed n ns))) <= times n (Qsum (map snd ns)))%Q /\
  (ns <> [] -> times n (Qsum (map snd ns)) - inject_Z (Z.of_nat (length ns)) < inject_Z (Z.of_nat (length (listed n ns))))%Q.
Proof.
  intros H. induction H as [|(k, v) ns P H IH]; cbn [listed flat_map map Qsum].
  - assert (T : (times n (Qsum []) == 0)%Q) by (unfold times; change (Qsum []) with 0%Q; ring). split; [rewrite T; apply Qle_refl|congruence].
  - destruct IH as (A & B). fold (listed n ns). destruct (@count_floor n v P) as (C & D). cbn [snd] in *.
    rewrite app_length, repeat_length, Nat2Z.inj_add, inject_Z_plus. cbn [length]. rewrite Nat2Z.inj_succ, <- Z.add_1_r, inject_Z_plus.
    change (inject_Z 1) with 1%Q. change (Qsum (v :: map snd ns)) with (v + Qsum (map snd ns))%Q.
    assert (T : (times n (v + Qsum (map snd ns)) == times n v + times n (Qsum (map snd ns)))%Q) by (unfold times; ring).
    rewrite T. split; [lra|]. intros _. destruct ns as [|kv ns].
    + assert (T0 : (times n (Qsum (map snd (@nil (nat * Q)))) == 0)%Q) by (unfold times; cbn [map]; change (Qsum []) with 0%Q; ring).
      rewrite T0. change (listed n []) with (@nil nat). cbn [length]. change (inject_Z (Z.of_nat 0)) with 0%Q. lra.
    + specialize (B ltac:(discriminate)). lra.
Qed.
(** The list before it is shuffled. *)
Definition full_list n ns picks := listed n ns ++ (if length (listed n ns) <? n then map (fun i => nth i (listed n ns) 0) picks else []).
Lemma per_feature_perm n ns picks shuffle l : possible n ns picks shuffle -> states_per_feature n ns picks shuffle = Some l ->
  Permutation l (full_list n ns picks) /\ length l = Nat.max n (length (listed n ns)).
Proof.
  intros (P & _ & S) H. unfold states_per_feature in H. unfold full_list.
  assert (G : forall full, length full = Nat.max n (length (listed n ns)) -> l = map (fun i => nth i full 0) shuffle -> Permutation l full /\ length l = Nat.max n (length (listed n ns))).
  { intros full L ->. split.
    - rewrite (Permutation_map (fun i => nth i full 0) S), <- L, map_nth_seq. reflexivity.
    - rewrite map_length, (Permutation_length S), seq_length. reflexivity. }
  destruct (Nat.ltb_spec (length (listed n ns)) n) as [L|L].
  - destruct (listed n ns) as [|x b] eqn:E; [discriminate|]. rewrite <- E in *. injection H as <-. apply G; auto.
    rewrite app_length, map_length. lia.
  - injection H as <-. rewrite app_nil_r. apply G; auto. lia.
Qed.
Lemma full_In n ns picks shuffle k : possible n ns picks shuffle -> In k (full_list n ns picks) -> In k (listed n ns).
Proof.
  intros (_ & P & _) H. unfold full_list in H. apply in_app_or in H. destruct H as [H|H]; auto. destruct (_ <? _); [|destruct H].
  apply in_map_iff in H. destruct H as (i & <- & I). rewrite Forall_forall in P. apply nth_In. auto.
Qed.

(** ** Drawn states *)
(** A drawn state is the first one, or one whose probability is positive. *)
Lemma first_true_positive z : forall p acc s, first_true (map (Qltb z) (cumsum_from acc p)) = Some s ->
  s < length p /\ ((acc <= z)%Q -> (0 < nth s p 0)%Q).
Proof.
  induction p as [|q p IH]; intros acc s H; [discriminate|]. cbn [cumsum_from map first_true] in H.
  destruct (Qltb z (acc + q)) eqn:E.
  - injection H as <-. split; [simpl; lia|]. intros A. cbn [nth]. unfold Qltb in E.
    destruct (Qle_bool (acc + q) z) eqn:L; [discriminate|]. assert (~ (acc + q <= z)%Q) by (rewrite <- Qle_bool_iff; congruence). lra.
  - destruct (first_true _) as [i|] eqn:F; [|discriminate]. injection H as <-. destruct (IH _ _ F) as (A & B). split; [simpl; lia|].
    intros _. cbn [nth]. apply B. unfold Qltb in E. destruct (Qle_bool (acc + q) z) eqn:L; [|discriminate]. apply Qle_bool_iff, L.
Qed.
Lemma first_true_later z : forall p acc s, first_true (map (Qltb z) (cumsum_from acc p)) = Some (S s) -> (0 < nth (S s) p 0)%Q.
Proof.
  destruct p as [|q p]; intros acc s H; [discriminate|]. cbn [cumsum_from map first_true] in H. destruct (Qltb z (acc + q)) eqn:E; [discriminate|].
  destruct (first_true _) as [i|] eqn:F; [|discriminate]. injection H as ->. cbn [nth]. apply (first_true_positive F).
  unfold Qltb in E. destruct (Qle_bool (acc + q) z) eqn:L; [|discriminate]. apply Qle_bool_iff, L.
Qed.
Lemma drawn_positive z p : categorical z p = 0 \/ exists l, p = Some l /\ (0 < nth (categorical z p) l 0)%Q.
Proof.
  destruct p as [l|]; [|left; reflexivity]. unfold categorical, argmax, cumsum. destruct (first_true _) as [[|s]|] eqn:F; auto.
  right. exists l. split; auto. apply (first_true_later F).
Qed.
(** States beyond those of the feature have no probability. *)
Lemma padded_zero n mx per groups draw g f s : f < n -> nth f per 0 <= s ->
  nth s (nth f (nth g (assignment_probabilities n mx per groups draw) []) []) 0%Q = 0%Q.
Proof.
  intros F S. unfold assignment_probabilities. destruct (Nat.lt_ge_cases g groups) as [G|G].
  - rewrite (nth_indep _ [] (map (fun f => map (fun s => if s <? nth f per 0 then nth s (draw 0 f) 0%Q else 0%Q) (seq 0 mx)) (seq 0 n))) by (rewrite map_length, seq_length; auto).
    rewrite (map_nth (fun g => map (fun f => map (fun s => if s <? nth f per 0 then nth s (draw g f) 0%Q else 0%Q) (seq 0 mx)) (seq 0 n))), seq_nth by auto.
    rewrite (nth_indep _ [] (map (fun s => if s <? nth 0 per 0 then nth s (draw (0 + g) 0) 0%Q else 0%Q) (seq 0 mx))) by (rewrite map_length, seq_length; auto).
    rewrite (map_nth (fun f => map (fun s => if s <? nth f per 0 then nth s (draw (0 + g) f) 0%Q else 0%Q) (seq 0 mx))), seq_nth by auto. cbn [Nat.add].
    destruct (Nat.lt_ge_cases s mx) as [M|M]; [|apply nth_overflow; rewrite map_length, seq_length; auto].
    apply nth_error_nth. rewrite nth_error_map, (nth_error_nth' _ 0) by (rewrite seq_length; auto). rewrite seq_nth by auto. cbn [option_map Nat.add].
    destruct (Nat.ltb_spec s (nth f per 0)); [lia|reflexivity].
  - rewrite (nth_overflow (map _ (seq 0 groups))) by (rewrite map_length, seq_length; auto). destruct f; destruct s; reflexivity.
Qed.
Lemma sum_zero A B (F : A -> B -> Q) l r : (forall x y, In y r -> (F x y == 0)%Q) -> (Qsum (map2 F l r) == 0)%Q.
Proof.
  revert r. induction l as [|x l IH]; intros [|y r] H; simpl; try reflexivity. rewrite H, IH; [ring| |left; auto].
  intros. apply H. right. auto.
Qed.
Lemma mixture_zero mx weights groups probs f o s p : Forall (fun es : list effect => forall e, In e es -> (nth s (nth f e []) 0 == 0)%Q) probs ->
  sim_dist mx weights (combine groups probs) f o = Some p -> (nth s p 0 == 0)%Q.
Proof.
  intros H E. unfold sim_dist in E. destruct (normalize_row _ _) as [nw|]; [|discriminate]. injection E as <-.
  destruct (Nat.lt_ge_cases s mx) as [M|M]; [|rewrite nth_overflow by (rewrite map_length, seq_length; auto); reflexivity].
  rewrite (nth_error_nth _ s 0%Q (map_nth_error _ s (seq 0 mx) (nth_error_nth' (seq 0 mx) 0 (eq_ind_r (fun k => s < k) M (seq_length mx 0))))).
  rewrite seq_nth by auto. cbn [Nat.add]. apply sum_zero. intros w (g, es) I.
  assert (Z0 : (nth s (sim_component mx g es f o) 0 == 0)%Q); [|cbn [fst snd]; rewrite Z0; ring].
  rewrite Forall_forall in H. apply in_combine_r in I. specialize (H es I).
  unfold sim_component. rewrite (nth_error_nth _ s 0%Q (map_nth_error _ s (seq 0 mx) (nth_error_nth' (seq 0 mx) 0 (eq_ind_r (fun k => s < k) M (seq_length mx 0))))).
  rewrite seq_nth by auto. cbn [Nat.add]. apply sum_zero. intros row e I'. destruct (nth o row false); [apply H, I'|reflexivity].
Qed.

(** Padding keeps points of the simplex. *)
Lemma padded_row d k mx : length d = k -> k <= mx -> map (fun s => if s <? k then nth s d 0%Q else 0%Q) (seq 0 mx) = d ++ repeat 0%Q (mx - k).
Proof.
  intros L M. apply (nth_ext _ _ 0%Q 0%Q); [rewrite map_length, seq_length, app_length, repeat_length; lia|].
  intros s S. rewrite map_length, seq_length in S.
  rewrite (nth_error_nth _ s 0%Q (map_nth_error _ s (seq 0 mx) (nth_error_nth' (seq 0 mx) 0 (eq_ind_r (fun k => s < k) S (seq_length mx 0))))).
  rewrite seq_nth by auto. cbn [Nat.add]. destruct (Nat.ltb_spec s k).
  - rewrite app_nth1 by lia. reflexivity.
  - rewrite app_nth2 by lia. symmetry. apply nth_repeat.
Qed.
Lemma padded_point d k mx : simplex_point k d -> k <= mx -> simplex_point mx (map (fun s => if s <? k then nth s d 0%Q else 0%Q) (seq 0 mx)).
Proof.
  intros (L & P & S) M. rewrite padded_row by auto. unfold simplex_point. conj.
  - rewrite app_length, repeat_length. lia.
  - apply Forall_app. split; auto. apply Forall_forall. intros q Q. apply repeat_spec in Q. subst q. apply Qle_refl.
  - assert (R : forall n, (Qsum (repeat 0 n) == 0)%Q) by (induction n as [|n IH]; simpl; [reflexivity|rewrite IH; ring]).
    assert (A : forall a b, (Qsum (a ++ b) == Qsum a + Qsum b)%Q) by (clear; induction a; intros b; simpl; [ring|rewrite IHa; ring]).
    rewrite A, R, S. ring.
Qed.
Lemma max_ge l f : f < length l -> nth f l 0 <= fold_right Nat.max 0 l.
Proof. revert f. induction l as [|x l IH]; intros [|f] H; simpl in *; try lia. specialize (IH f ltac:(lia)). lia. Qed.

(** ** The whole simulation *)
Section Inv.
Variable parse : str -> option Q.
Variable parse_int : str -> option Z.
Variable int_of : str -> option nat.
Lemma run_inv config rows dr sm : run_simulation parse parse_int int_of config rows dr = Some sm ->
  exists ns ks, n_features_of config = Some (sm_n sm) /\ n_states_of int_of config = Some ns /\ confounders_of config = Some ks /\
    load_canvas parse parse_int ks rows = Some (sm_sites sm) /\
    states_per_feature (sm_n sm) ns (dr_picks dr) (dr_shuffle dr) = Some (sm_states sm) /\
    sm_max sm = fold_right Nat.max 0 (sm_states sm) /\
    sm_groups sm = assign_to_cluster (si_cluster (sm_sites sm)) :: map (fun c => assign_to_confounder (snd c)) (si_confounders (sm_sites sm)) /\
    sm_probs sm = mapi (fun c g => assignment_probabilities (sm_n sm) (sm_max sm) (sm_states sm) (length g) (dr_probs dr c)) (sm_groups sm) /\
    sm_features sm = map (fun o => map (fun f =>
       sim_feature (sm_max sm) (dr_weights dr) (combine (sm_groups sm) (sm_probs sm)) (dr_uniform dr f o) f o) (seq 0 (sm_n sm))) (seq 0 (length (si_id (sm_sites sm)))).
Proof.
  unfold run_simulation. destruct (n_features_of config) as [n|] eqn:N; [|discriminate]. destruct (n_states_of int_of config) as [ns|] eqn:NS; [|discriminate].
  destruct (confounders_of config) as [ks|] eqn:K; [|discriminate]. destruct (load_canvas parse parse_int ks rows) as [si|] eqn:SI; [|discriminate].
  destruct (states_per_feature n ns (dr_picks dr) (dr_shuffle dr)) as [[|s r]|] eqn:SP; try discriminate.
  destruct (forallb _ (dr_weights dr)); [|discriminate]. intros H. injection H as <-. exists ns, ks. cbn. conj; auto.
Qed.
End Inv.
Lemma probs_zero sm dr f s : f < sm_n sm -> nth f (sm_states sm) 0 <= s ->
  sm_probs sm = mapi (fun c g => assignment_probabilities (sm_n sm) (sm_max sm) (sm_states sm) (length g) (dr_probs dr c)) (sm_groups sm) ->
  Forall (fun es : list effect => forall e, In e es -> (nth s (nth f e []) 0 == 0)%Q) (sm_probs sm).
Proof.
  intros F S ->. rewrite (@L_contrib.mapi_nth _ _ _ []). apply Forall_map, Forall_forall. intros c _ e E.
  apply In_nth with (d := []) in E. destruct E as (g & _ & <-). rewrite (@padded_zero (sm_n sm)) by auto. reflexivity.
Qed.
(** Lengths of what is read from the canvas. *)
Lemma canvas_lengths parse parse_int ks rows si : rectangular rows -> load_canvas parse parse_int ks rows = Some si ->
  length (si_x si) = length (si_id si) /\ length (si_y si) = length (si_id si) /\ length (si_cluster si) = length (si_id si) /\
  Forall (fun c => length (snd c) = length (si_id si)) (si_confounders si) /\ map fst (si_confounders si) = ks /\
  Forall (fun k => ~ In k (map s_ ["id"; "x"; "y"; "cluster"]%string)) ks.
Proof.
  intros R H. destruct rows as [|h b]; [destruct R|]. destruct R as (N & F). unfold load_canvas in H.
  destruct (canvas_columns (h :: b)) as [d|] eqn:D; [|discriminate].
  assert (LL : forall name col, last_col d name = Some col -> length col = length b).
  { intros name col L. destruct (@canvas_last h b d name col N F D L) as (j & _ & F2). symmetry. eapply Forall2_len; eauto. }
  destruct (last_col d (s_ "x")) as [x|] eqn:X; [|discriminate]. destruct (last_col d (s_ "y")) as [y|] eqn:Y; [|discriminate].
  destruct (last_col d (s_ "id")) as [i|] eqn:I; [|discriminate]. destruct (last_col d (s_ "cluster")) as [c|] eqn:C; [|discriminate].
  destruct (existsb _ ks) eqn:NC; [discriminate|]. destruct (_ || _); [discriminate|].
  destruct (all_opt' (map (fun k => _) ks)) as [cs|] eqn:CS; [|discriminate].
  rewrite (LL _ _ I), !firstn_all2 in H by (rewrite ?(LL _ _ X), ?(LL _ _ Y); auto).
  destruct (all_opt' (map parse x)) as [qx|] eqn:QX; [|discriminate]. destruct (all_opt' (map parse y)) as [qy|] eqn:QY; [|discriminate].
  destruct (all_opt' (map parse_int c)) as [zc|] eqn:ZC; [|discriminate]. injection H as <-.
  cbn [si_id si_x si_y si_cluster si_confounders]. destruct (all_opt'_pairs CS) as (A & B).
  apply all_opt'_Forall2, Forall2_len in QX. apply all_opt'_Forall2, Forall2_len in QY. apply all_opt'_Forall2, Forall2_len in ZC.
  rewrite map_length in QX, QY, ZC. pose proof (LL _ _ X). pose proof (LL _ _ Y). pose proof (LL _ _ I). pose proof (LL _ _ C). conj; auto; try lia.
  - apply Forall_forall. intros (k, ls) K. cbn [snd]. rewrite (LL k ls (B k ls K)). lia.
  - apply Forall_forall. intros k K Q. assert (T : existsb (fun k => mem k (map s_ ["x"; "y"; "id"; "cluster"]%string)) ks = true); [|congruence].
    apply existsb_exists. exists k. split; auto. apply mem_In. simpl in *. tauto.
Qed.
Lemma nth_error_seq_map A (F : nat -> A) n i x : nth_error (map F (seq 0 n)) i = Some x -> i < n /\ x = F i.
Proof.
  intros H. assert (L : i < n) by (assert (X : i < length (map F (seq 0 n))) by (apply nth_error_Some; congruence); rewrite map_length, seq_length in X; auto).
  split; auto. rewrite nth_error_map, (nth_error_nth' _ 0), seq_nth in H by (rewrite ?seq_length; auto). injection H as <-. reflexivity.
Qed.
Lemma nth_seq_map A (F : nat -> A) n i d : i < n -> nth i (map F (seq 0 n)) d = F i.
Proof. intros H. apply nth_error_nth. rewrite nth_error_map, (nth_error_nth' _ 0), seq_nth by (rewrite ?seq_length; auto). reflexivity. Qed.
Lemma mapi_cons A B (f : nat -> A -> B) x l : mapi f (x :: l) = f 0 x :: mapi (fun c => f (S c)) l.
Proof. apply nth_error_ext. intros [|i]; rewrite nth_error_mapi; cbn [nth_error option_map]; rewrite ?nth_error_mapi; reflexivity. Qed.
Lemma nth_error_combine A B (l : list A) (r : list B) i x y : nth_error (combine l r) i = Some (x, y) <-> nth_error l i = Some x /\ nth_error r i = Some y.
Proof.
  revert r i. induction l as [|a l IH]; intros [|b r] [|i]; simpl; try (split; [discriminate|intros (P & Q); discriminate]).
  - split; [intros E; injection E as -> ->; auto|intros (P & Q); congruence].
  - apply IH.
Qed.
Lemma combine_fst A B (l : list A) (r : list B) : length r = length l -> map fst (combine l r) = l.
Proof. revert r. induction l as [|a l IH]; intros [|b r] H; simpl in *; try discriminate; auto. f_equal. apply IH. lia. Qed.
