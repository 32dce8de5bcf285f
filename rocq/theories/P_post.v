(** C47-C50, C55: post-processing, network attributes, operator weights. *)
From Coq Require FinFun.
From Coq Require Import Permutation Sorted Lqa.
From Verif Require Import M_post L_loggers L_text.
Set Implicit Arguments.
Unset Strict Implicit.

(** * C47 *)
(** Specification: deviance of a sample; DIC of a trace with the given greatest likelihood. *)
Definition deviance (lh : Q) : Q := (-(2) * lh)%Q.
Definition is_max (m : Q) (l : list Q) : Prop := In m l /\ forall x, In x l -> (x <= m)%Q.
Definition dic_spec (trace : list Q) (mode : Q) : Q := (2 * mean_q (map deviance trace) - deviance mode)%Q.
Lemma max_q_spec l : forall x, is_max (max_q x l) (x :: l).
Proof.
  induction l as [|y r IH]; intros x; simpl.
  - split; [left; auto|]. intros z [->|[]]. apply Qle_refl.
  - destruct (IH y) as (Hin & Hle). destruct (Qle_bool x (max_q y r)) eqn:E.
    + apply Qle_bool_iff in E. split; [right; exact Hin|]. intros z [->|Hz]; auto.
    + assert (E' : (max_q y r <= x)%Q). { destruct (Qlt_le_dec x (max_q y r)) as [H|H]; auto. apply Qlt_le_weak, Qle_bool_iff in H. congruence. }
      split; [left; auto|]. intros z [->|Hz]; [apply Qle_refl|]. eapply Qle_trans; [apply Hle, Hz|exact E'].
Qed.
Lemma Qsum_map_scale c l : (Qsum (map (fun x => c * x) l) == c * Qsum l)%Q.
Proof. induction l; simpl; [ring|]. rewrite IHl. ring. Qed.
Lemma mean_deviance l : (mean_q (map deviance l) == -(2) * mean_q l)%Q.
Proof. unfold mean_q, deviance. rewrite map_length, Qsum_map_scale. unfold Qdiv. ring. Qed.
(** What the function returns: the DIC plus twice the deviance at the mode. *)
Theorem C47_value_partial lh burn_in d : compute_dic lh burn_in = Some d ->
  exists trace mode, trace = slice_from (Qceiling (inject_Z (Z.of_nat (length lh)) * burn_in)) lh /\ is_max mode trace /\
    (d == dic_spec trace mode + 2 * deviance mode)%Q.
Proof.
  unfold compute_dic. destruct (slice_from _ lh) as [|x r] eqn:E; [discriminate|]. intros H. injection H as <-.
  exists (x :: r), (max_q x r). conj; auto; [apply max_q_spec|]. unfold dic_spec. rewrite mean_deviance. unfold deviance. ring.
Qed.
Print Assumptions C47_value_partial.
(** The slice: without the first [i] entries, or the last [-i] for negative [i]. *)
Theorem C47_slice A i (l : list A) : exists r, l = r ++ slice_from i l /\
  (0 <= i -> length r = Nat.min (Z.to_nat i) (length l))%Z /\ (i < 0 -> length (slice_from i l) = Nat.min (Z.to_nat (- i)) (length l))%Z.
Proof.
  unfold slice_from. destruct (Z.ltb_spec i 0) as [H|H].
  - exists (firstn (Z.to_nat (Z.max 0 (Z.of_nat (length l) + i))) l). rewrite firstn_skipn. conj; [reflexivity|lia|]. intros _. rewrite skipn_length. lia.
  - exists (firstn (Z.to_nat i) l). rewrite firstn_skipn. conj; [reflexivity| |lia]. intros _. rewrite firstn_length. lia.
Qed.
Print Assumptions C47_slice.
Example C47_slice_case : slice_from 2 [1; 2; 3; 4; 5]%Q = [3; 4; 5]%Q /\ slice_from (-2) [1; 2; 3; 4; 5]%Q = [4; 5]%Q.
Proof. split; reflexivity. Qed.
(** Hence it is the DIC only if the greatest log-likelihood is zero. *)
Theorem C47_only_if lh burn_in d trace mode : compute_dic lh burn_in = Some d ->
  trace = slice_from (Qceiling (inject_Z (Z.of_nat (length lh)) * burn_in)) lh -> is_max mode trace ->
  (d == dic_spec trace mode)%Q -> (mode == 0)%Q.
Proof.
  intros H -> Hm Hd. destruct (C47_value_partial H) as (t & m & -> & (Hin & Hle) & Hv). destruct Hm as (Hin' & Hle').
  assert (E : (m == mode)%Q) by (apply Qle_antisym; auto).
  unfold dic_spec, deviance in *. lra.
Qed.
Print Assumptions C47_only_if.
Theorem C47_refuted : exists lh burn_in d trace mode, compute_dic lh burn_in = Some d /\
  trace = slice_from (Qceiling (inject_Z (Z.of_nat (length lh)) * burn_in)) lh /\ is_max mode trace /\ ~ (d == dic_spec trace mode)%Q.
Proof.
  exists [-(10); -(5); -(7)]%Q, (1#5)%Q. eexists. eexists. exists (-(5))%Q. conj; try (vm_compute; reflexivity).
  - split; [left; reflexivity|]. intros x Hx. vm_compute in Hx. destruct Hx as [<-|[<-|[]]]; vm_compute; discriminate.
  - vm_compute. discriminate.
Qed.
Print Assumptions C47_refuted.

(** * C48: the function always raises an exception. *)
Lemma match_loop_acc cs : forall s m, match_loop cs s m = m.
Proof. induction cs as [|c cs IH]; intros; simpl; auto. Qed.
Theorem C48_always_fails B C (x : samples (list bool) B C) : match_clusters x = None.
Proof.
  unfold match_clusters. destruct (sm_clusters x) as [|s0 r] eqn:E; auto. rewrite match_loop_acc.
  unfold take_each at 1. simpl. reflexivity.
Qed.
Print Assumptions C48_always_fails.
Theorem C48_refuted : exists x : samples (list bool) Q Q, (exists s, In s (sm_clusters x) /\ s <> []) /\ match_clusters x = None.
Proof.
  exists {| sm_clusters := [[[true; false]; [false; true]]]; sm_effect := [[1; 2]%Q]; sm_lh := [[1; 2]%Q]; sm_prior := [[1; 2]%Q]; sm_post := [[1; 2]%Q] |}.
  split; [|apply C48_always_fails]. eexists. split; [left; reflexivity|discriminate].
Qed.
Print Assumptions C48_refuted.

(** * C49 *)
(** Specification: [y] is [x] with its elements taken in the order [p]. *)
Definition reordered {A} (p : list nat) (x y : list A) : Prop := Forall2 (fun i a => nth_error x i = Some a) p y.
Definition all_reordered {A} (p : list nat) (x y : list (list A)) : Prop := Forall2 (reordered p) x y.
Lemma all_opt_Forall2 A (l : list (option A)) r : all_opt l = Some r -> Forall2 (fun x y => x = Some y) l r.
Proof.
  revert r; induction l as [|[x|] l IH]; intros r H; simpl in H.
  - injection H as <-. constructor.
  - destruct (all_opt l) as [b|]; [|discriminate]. injection H as <-. constructor; auto.
  - discriminate.
Qed.
Lemma Forall2_map_l A B C (f : A -> B) (R : B -> C -> Prop) l r : Forall2 R (map f l) r -> Forall2 (fun x y => R (f x) y) l r.
Proof. revert r; induction l; intros r H; inversion H; subst; constructor; auto. Qed.
Lemma take_spec A p (l r : list A) : take p l = Some r -> reordered p l r.
Proof. intros H. apply all_opt_Forall2 in H. apply Forall2_map_l in H. exact H. Qed.
Lemma take_all_spec A p (l r : list (list A)) : all_opt (map (take p) l) = Some r -> all_reordered p l r.
Proof.
  intros H. apply all_opt_Forall2, Forall2_map_l in H. unfold all_reordered. induction H; constructor; auto using take_spec.
Qed.
Lemma insert_by_perm key i l : Permutation (i :: l) (insert_by key i l).
Proof.
  induction l as [|j r IH]; simpl; auto. destruct (Qle_bool (key i) (key j)); auto.
  eapply Permutation_trans; [apply perm_swap|]. constructor. exact IH.
Qed.
Lemma argsort_perm keys : Permutation (seq 0 (length keys)) (argsort keys).
Proof.
  unfold argsort. induction (seq 0 (length keys)) as [|i l IH]; simpl; auto.
  eapply Permutation_trans; [|apply insert_by_perm]. constructor. exact IH.
Qed.
Lemma insert_by_sorted key i l : StronglySorted (fun a b => (key a <= key b)%Q) l -> StronglySorted (fun a b => (key a <= key b)%Q) (insert_by key i l).
Proof.
  induction 1 as [|j r Hr IH HF]; simpl; [repeat constructor|]. destruct (Qle_bool (key i) (key j)) eqn:E.
  - apply Qle_bool_iff in E. constructor; [constructor; auto|]. constructor; auto. eapply Forall_impl; [|exact HF]. intros a Ha. eapply Qle_trans; eauto.
  - assert (E' : (key j <= key i)%Q). { destruct (Qlt_le_dec (key i) (key j)) as [H|H]; auto. apply Qlt_le_weak, Qle_bool_iff in H. congruence. }
    constructor; auto. apply Forall_forall. intros a Ha. apply (Permutation_in _ (Permutation_sym (insert_by_perm key i r))) in Ha.
    rewrite Forall_forall in HF. destruct Ha as [<-|Ha]; auto.
Qed.
Lemma argsort_sorted keys : StronglySorted (fun a b => (nth a keys 0 <= nth b keys 0)%Q) (argsort keys).
Proof. unfold argsort. induction (seq 0 (length keys)); simpl; [constructor|]. apply insert_by_sorted; auto. Qed.
Lemma StronglySorted_nth A (R : A -> A -> Prop) l : StronglySorted R l -> forall i j a b, i < j -> nth_error l i = Some a -> nth_error l j = Some b -> R a b.
Proof.
  induction 1 as [|x l Hl IH HF]; intros [|i] [|j] a b Hij Ha Hb; simpl in *; try lia; try discriminate.
  - injection Ha as <-. rewrite Forall_forall in HF. apply HF. eapply nth_error_In; eauto.
  - eapply IH; [|exact Ha|exact Hb]. lia.
Qed.
Lemma Forall2_nth2 A B (R : A -> B -> Prop) l r : Forall2 R l r -> forall i y, nth_error r i = Some y -> exists x, nth_error l i = Some x /\ R x y.
Proof. induction 1 as [|a b l r Hab H IH]; intros [|i] y Hi; simpl in *; try discriminate; eauto. injection Hi as <-. eauto. Qed.
Lemma reordered_nth (p : list nat) (u v : list Q) i q : reordered p u v -> nth_error p i = Some q -> nth q u 0%Q = nth i v 0%Q.
Proof.
  intros H. revert i q. induction H as [|a b p v Hab H IH]; intros [|i] q Hi; simpl in *; try discriminate; eauto.
  injection Hi as <-. apply nth_error_nth. exact Hab.
Qed.
(** The mean of column [j]. *)
Definition column_mean (rows : list (list Q)) (j : nat) : Q := mean_q (map (fun r => nth j r 0%Q) rows).

Theorem C49_rank A B (x y : samples A B Q) : rank_clusters x = Some y ->
  exists p k, Permutation (seq 0 k) p /\ Forall (fun r => length r = k) (sm_post x) /\
    all_reordered p (sm_clusters x) (sm_clusters y) /\ all_reordered p (sm_effect x) (sm_effect y) /\
    all_reordered p (sm_lh x) (sm_lh y) /\ all_reordered p (sm_prior x) (sm_prior y) /\ all_reordered p (sm_post x) (sm_post y) /\
    forall i j, i < j -> j < k -> (column_mean (sm_post y) j <= column_mean (sm_post y) i)%Q.
Proof.
  unfold rank_clusters. destruct (mean_columns (sm_post x)) as [m|] eqn:Em; [|discriminate]. set (p := argsort (map Qopp m)).
  destruct (all_opt (map (take p) (sm_clusters x))) as [a|] eqn:Ea; [|discriminate].
  destruct (all_opt (map (take p) (sm_lh x))) as [c|] eqn:Ec; [|discriminate].
  destruct (all_opt (map (take p) (sm_prior x))) as [d|] eqn:Ed; [|discriminate].
  destruct (all_opt (map (take p) (sm_post x))) as [e|] eqn:Ee; [|discriminate].
  destruct (all_opt (map (take p) (sm_effect x))) as [b|] eqn:Eb; [|discriminate].
  intros H. injection H as <-. cbn [sm_clusters sm_effect sm_lh sm_prior sm_post].
  assert (He := take_all_spec Ee).
  unfold mean_columns in Em. destruct (sm_post x) as [|r0 rr] eqn:Ex; [discriminate|]. set (k := length r0) in *.
  destruct (forallb (fun r => length r =? k) (r0 :: rr)) eqn:Ef; [|discriminate]. 
  assert (Hm : m = map (column_mean (r0 :: rr)) (seq 0 k)) by (injection Em as <-; reflexivity). clear Em.
  assert (Hlen : length (map Qopp m) = k) by (rewrite map_length, Hm, map_length, seq_length; reflexivity).
  assert (Hp : Permutation (seq 0 k) p). { unfold p. rewrite <- Hlen at 1. apply argsort_perm. }
  exists p, k. conj; auto using take_all_spec.
  - apply Forall_forall. intros r Hr. rewrite forallb_forall in Ef. apply Nat.eqb_eq, Ef, Hr.
  - (* the columns of the reordered posterior are the columns p(i) of the original *)
    assert (Hcol : forall i q, nth_error p i = Some q -> column_mean e i = column_mean (r0 :: rr) q).
    { intros i q Hi. unfold column_mean. f_equal. clear -He Hi. induction He as [|u v us vs Huv He IH]; simpl; auto. f_equal; auto.
      symmetry. eapply reordered_nth; eauto. }
    intros i j Hij Hj. assert (Hlp : length p = k) by (rewrite <- (Permutation_length Hp), seq_length; reflexivity).
    destruct (nth_error p i) as [qi|] eqn:Ei; [|apply nth_error_None in Ei; lia].
    destruct (nth_error p j) as [qj|] eqn:Ej; [|apply nth_error_None in Ej; lia].
    rewrite (Hcol i qi Ei), (Hcol j qj Ej).
    assert (Hs := StronglySorted_nth (argsort_sorted (map Qopp m)) Hij Ei Ej). simpl in Hs.
    assert (Hn : forall q, In q p -> nth q (map Qopp m) 0%Q = (- column_mean (r0 :: rr) q)%Q).
    { intros q Hq. apply (Permutation_in _ (Permutation_sym Hp)) in Hq. apply in_seq in Hq.
      apply nth_error_nth. rewrite Hm, map_map. apply (map_nth_error (fun x => Qopp (column_mean (r0 :: rr) x))).
      rewrite nth_error_nth' with (d := 0) by (rewrite seq_length; lia). rewrite seq_nth by lia. reflexivity. }
    rewrite (Hn qi), (Hn qj) in Hs by (eapply nth_error_In; eauto). lra.
Qed.
Print Assumptions C49_rank.
(** It returns for all rectangular collections with at least one sample. *)
Definition rectangular {A} (k : nat) (rows : list (list A)) : Prop := Forall (fun r => length r = k) rows.
Lemma all_opt_some A (l : list (option A)) : Forall (fun x => x <> None) l -> exists r, all_opt l = Some r.
Proof.
  induction 1 as [|[x|] l Hx Hl (r & IH)]; simpl; [eexists; reflexivity| |congruence]. rewrite IH. eexists; reflexivity.
Qed.
Lemma take_rectangular A (p : list nat) k (rows : list (list A)) : Permutation (seq 0 k) p -> rectangular k rows -> exists r, all_opt (map (take p) rows) = Some r.
Proof.
  intros Hp Hr. apply all_opt_some, Forall_map. eapply Forall_impl; [|exact Hr]. intros row Hrow E.
  destruct (@all_opt_some _ (map (fun i => nth_error row i) p)) as (r & Hok); [|unfold take in E; congruence].
  apply Forall_map, Forall_forall. intros i Hi. apply (Permutation_in _ (Permutation_sym Hp)) in Hi. apply in_seq in Hi. apply nth_error_Some. cbv beta in Hrow. lia.
Qed.
Theorem C49_defined A B (x : samples A B Q) k : sm_post x <> [] -> rectangular k (sm_post x) -> rectangular k (sm_clusters x) -> rectangular k (sm_effect x) ->
  rectangular k (sm_lh x) -> rectangular k (sm_prior x) -> exists y, rank_clusters x = Some y.
Proof.
  intros Hne H1 H2 H3 H4 H5. unfold rank_clusters, mean_columns.
  destruct (sm_post x) as [|r0 rr] eqn:Ex; [congruence|].
  assert (Hk : length r0 = k) by (inversion H1; auto). rewrite Hk.
  assert (E : forallb (fun r => length r =? k) (r0 :: rr) = true).
  { apply forallb_forall. intros r Hr. unfold rectangular in H1. rewrite Forall_forall in H1. apply Nat.eqb_eq, H1, Hr. }
  rewrite E. set (m := map _ (seq 0 k)).
  assert (Hp : Permutation (seq 0 k) (argsort (map Qopp m))).
  { assert (Hl : length (map Qopp m) = k) by (unfold m; rewrite !map_length, seq_length; auto). rewrite <- Hl at 1. apply argsort_perm. }
  cbv zeta. destruct (take_rectangular Hp H2) as (a & ->). destruct (take_rectangular Hp H4) as (b & ->). destruct (take_rectangular Hp H5) as (c & ->).
  destruct (take_rectangular Hp H1) as (d & ->). destruct (take_rectangular Hp H3) as (g & ->). eexists; reflexivity.
Qed.
Print Assumptions C49_defined.
Definition demo_samples : samples nat nat Q :=
  {| sm_clusters := [[0; 1; 2]; [3; 4; 5]]; sm_effect := [[0; 1; 2]; [3; 4; 5]]; sm_lh := [[1; 2; 3]; [4; 5; 6]]%Q;
     sm_prior := [[1; 2; 3]; [4; 5; 6]]%Q; sm_post := [[-(3); -(1); -(2)]; [-(3); -(2); -(1#2)]]%Q |}.
Example C49_demo : exists y, rank_clusters demo_samples = Some y /\ sm_clusters y = [[2; 1; 0]; [5; 4; 3]].
Proof. eexists. conj; vm_compute; reflexivity. Qed.

(** * C55 *)
Definition attributes : list str := map s_ ["vertices"; "edges"; "locations"; "names"; "adj_mat"; "n"; "m"; "dist_mat"]%string.
(** Holds for all attributes but one.  Missing for the full statement: "names", for which it is false. *)
Theorem C55_set_get_partial V (w w' : network V) key v : key <> s_ "names" -> nw_set w key v = Some w' ->
  nw_get w' key = Some v /\ forall k, k <> key -> nw_get w' k = nw_get w k.
Proof.
  intros Hn H. destruct w as [a b c d e f g h]. unfold nw_set in H.
  assert (Hneq : forall x y : str, x <> y -> str_eqb x y = false) by (intros x y Hxy; destruct (str_eqb x y) eqn:E; auto; apply str_eqb_eq in E; contradiction).
  rewrite (Hneq _ _ Hn) in H.
  repeat match type of H with
  | (if str_eqb key ?l then _ else _) = _ =>
      let E := fresh "E" in destruct (str_eqb key l) eqn:E;
      [apply str_eqb_eq in E; subst key; injection H as <-; split;
       [reflexivity|let k := fresh "k" in let Hk := fresh "Hk" in intros k Hk; unfold nw_get; cbn [nw_vertices nw_edges nw_locations nw_names nw_adj_mat nw_n nw_m nw_dist_mat]; rewrite (Hneq _ _ Hk); reflexivity]|]
  end. discriminate.
Qed.
Print Assumptions C55_set_get_partial.
(** All attributes can be set, other keys are rejected. *)
Theorem C55_keys V (w : network V) key v : (exists w', nw_set w key v = Some w') <-> In key attributes.
Proof.
  rewrite <- mem_In. destruct w as [a b c d e f g h]. unfold nw_set, mem, attributes. cbn [map existsb].
  repeat match goal with |- context [str_eqb key ?l] => let E := fresh "E" in destruct (str_eqb key l) eqn:E; [split; eauto; intros _; reflexivity|cbn [orb]] end.
  split; [intros (w' & H); discriminate|discriminate].
Qed.
Print Assumptions C55_keys.
Theorem C55_refuted : exists (w w' : network Z) key v, nw_set w key v = Some w' /\
  nw_get w' key <> Some v /\ nw_get w' (s_ "locations") <> nw_get w (s_ "locations") /\ key <> s_ "locations".
Proof.
  exists (Build_network 1 2 3 4 5 6 7 8)%Z. eexists. exists (s_ "names"), 9%Z. conj; try (vm_compute; reflexivity); vm_compute; discriminate.
Qed.
Print Assumptions C55_refuted.
Example C55_demo : exists w', nw_set (Build_network 1 2 3 4 5 6 7 8)%Z (s_ "edges") 9%Z = Some w' /\ nw_get w' (s_ "edges") = Some 9%Z.
Proof. eexists. conj; vm_compute; reflexivity. Qed.

(** * C50 *)
(** Specification: the entry of the configuration that governs an operator. *)
Inductive kind := KClusters | KWeights | KClusterEffect | KConfounding | KSource.
Definition weight_of (c : operators_config) (k : kind) : Q :=
  match k with KClusters => oc_clusters c | KWeights => oc_weights c | KClusterEffect => oc_cluster_effect c | KConfounding => oc_confounding_effects c | KSource => oc_source c end.
Definition kind_of (name : str) : kind :=
  if mem name (map s_ ["gibbsish_sample_cluster"; "gibbsish_sample_cluster_2"""; "sample_cluster"]%string) then KClusters
  else if mem name (map s_ ["gibbs_sample_weights"; "alter_weights"]%string) then KWeights
  else if mem name (map s_ ["gibbs_sample_cluster_effect"; "alter_cluster_effect"]%string) then KClusterEffect
  else if mem name (map s_ ["gibbs_sample_sources"]%string) then KSource
  else KConfounding.
Definition kind_dec (a b : kind) : {a = b} + {a <> b}. Proof. decide equality. Defined.
Definition share (ops : list (str * Q)) (k : kind) : Q :=
  Qsum (map snd (filter (fun '(n, _) => if kind_dec (kind_of n) k then true else false) ops)).
Definition total_weight (c : operators_config) : Q :=
  (oc_clusters c + oc_weights c + oc_cluster_effect c + oc_confounding_effects c + oc_source c)%Q.
Definition config_ok (c : operators_config) : Prop := forall k, (0 <= weight_of c k)%Q.

Lemma Qsum_repeat (l : list str) (q : Q) : (Qsum (map (fun _ => q) l) == inject_Z (Z.of_nat (length l)) * q)%Q.
Proof.
  induction l as [|a l IH]; simpl Qsum; [reflexivity|]. rewrite IH. cbn [length]. rewrite Nat2Z.inj_succ. unfold Z.succ. rewrite inject_Z_plus. ring.
Qed.
Lemma Qsum_app' l r : (Qsum (l ++ r) == Qsum l + Qsum r)%Q.
Proof. induction l; simpl; [ring|]. rewrite IHl. ring. Qed.
Lemma kind_conf_gibbs k : kind_of (s_ "gibbs_sample_confounding_effects_" ++ k) = KConfounding.
Proof. reflexivity. Qed.
Lemma kind_conf_alter k : kind_of (s_ "alter_confounding_effects_" ++ k) = KConfounding.
Proof. reflexivity. Qed.
Lemma share_app a b k : (share (a ++ b) k == share a k + share b k)%Q.
Proof. unfold share. rewrite filter_app, map_app. apply Qsum_app'. Qed.
Lemma share_conf (pre : str) (l : list str) (q : Q) k : (forall x, kind_of (pre ++ x) = KConfounding) ->
  (share (map (fun x => (pre ++ x, q)) l) k == if kind_dec KConfounding k then inject_Z (Z.of_nat (length l)) * q else 0)%Q.
Proof.
  intros H. unfold share. destruct (kind_dec KConfounding k) as [<-|Hne].
  - rewrite <- Qsum_repeat. replace (filter _ _) with (map (fun x => (pre ++ x, q)) l).
    + rewrite map_map. reflexivity.
    + induction l as [|a l IH]; simpl; auto. rewrite H. simpl. congruence.
  - replace (filter _ _) with (@nil (str * Q)); [reflexivity|]. induction l as [|a l IH]; cbn [map filter]; auto. rewrite H.
    destruct (kind_dec KConfounding k); [contradiction|]. exact IH.
Qed.
Lemma n_r (n : nat) (x : Q) : (0 < n)%nat -> (inject_Z (Z.of_nat n) * (1 / inject_Z (Z.of_nat n) * x) == x)%Q.
Proof.
  intros Hn. field. intros H. change 0%Q with (inject_Z 0) in H. apply (proj1 (inject_Z_injective _ _)) in H. lia.
Qed.
Lemma prefix_NoDup (pre : str) (confs : list str) : NoDup confs -> NoDup (map (fun k => pre ++ k) confs).
Proof. intros HN. apply FinFun.Injective_map_NoDup; auto. intros a b E. apply app_inv_head in E. exact E. Qed.
Lemma prefix_disjoint (confs : list str) (pre : str) (l : list str) (P : str -> Prop) : (forall x, In x l -> P x) -> (forall k, ~ P (pre ++ k)) ->
  NoDup l -> NoDup confs -> NoDup (l ++ map (fun k => pre ++ k) confs).
Proof.
  intros HP HnP Hl HN. apply prefix_NoDup with (pre := pre) in HN. induction Hl as [|a l Ha Hl IH]; simpl; auto. constructor.
  - rewrite in_app_iff. intros [Hin|Hin]; auto. apply in_map_iff in Hin. destruct Hin as (k & <- & _). eapply HnP, HP. left; reflexivity.
  - apply IH; auto. intros x Hx. apply HP. right; auto.
Qed.
Lemma raw_spec src confs c ops : raw_operators src confs (validate_operators src c) = Some ops ->
  (forall k, (share ops k == weight_of (validate_operators src c) k)%Q) /\ (Qsum (map snd ops) == total_weight (validate_operators src c))%Q /\
  (config_ok c -> Forall (fun '(_, w) => (0 <= w)%Q) ops) /\ (NoDup confs -> NoDup (map fst ops)).
Proof.
  unfold raw_operators. set (v := validate_operators src c). set (n := length confs). destruct (Nat.eqb_spec n 0) as [|Hn']; [discriminate|].
  assert (Hn : (0 < n)%nat) by lia. intros H.
  assert (Hr : (0 <= 1 / inject_Z (Z.of_nat n))%Q).
  { unfold Qdiv. rewrite Qmult_1_l. apply Qinv_le_0_compat. change 0%Q with (inject_Z 0). rewrite <- Zle_Qle. lia. }
  assert (E : ops = operator_list src confs v (1 / inject_Z (Z.of_nat n))%Q) by congruence. subst ops. clear H. unfold operator_list.
  assert (Hsum : forall (pre : str) q, (Qsum (map snd (map (fun k => (pre ++ k, q)) confs)) == inject_Z (Z.of_nat n) * q)%Q).
  { intros pre q. rewrite map_map. cbn [snd]. apply Qsum_repeat. }
  destruct src.
  - conj.
    + intros k. rewrite share_app, (share_conf _ _ _ kind_conf_gibbs). fold n. destruct k; unfold share; simpl; rewrite ?n_r by auto; try ring.
    + rewrite map_app, Qsum_app', Hsum, n_r by auto. unfold total_weight. simpl. ring.
    + intros Hc. assert (H1 := Hc KClusters). assert (H2 := Hc KWeights). assert (H3 := Hc KClusterEffect). assert (H4 := Hc KConfounding). assert (H5 := Hc KSource).
      cbn [weight_of] in *. apply Forall_app. split; [repeat (apply Forall_cons; [unfold v; cbn [validate_operators oc_clusters oc_weights oc_cluster_effect oc_confounding_effects oc_source]; lra|]); apply Forall_nil|]. apply Forall_map, Forall_forall. intros k _. apply Qmult_le_0_compat; auto.
    + intros HN. rewrite map_app. rewrite (map_map (fun k => (s_ "gibbs_sample_confounding_effects_" ++ k, _)) fst). cbn [fst].
      apply prefix_disjoint with (P := fun x => startswith (s_ "gibbs_sample_confounding_effects_") x = false); auto.
      * intros x Hx. cbn [map fst] in Hx. repeat (destruct Hx as [<-|Hx]; [reflexivity|]). destruct Hx.
      * intros k. rewrite startswith_app. discriminate.
      * cbn [map fst]. repeat constructor; cbn [In]; intros Hx; repeat (destruct Hx as [Hx|Hx]; [discriminate Hx|]); exact Hx.
  - conj.
    + intros k. rewrite share_app, (share_conf _ _ _ kind_conf_alter). fold n.
      destruct k; unfold share; simpl; rewrite ?n_r by auto; try ring.
    + rewrite map_app, Qsum_app', Hsum, n_r by auto. unfold total_weight. simpl. ring.
    + intros Hc. assert (H1 := Hc KClusters). assert (H2 := Hc KWeights). assert (H3 := Hc KClusterEffect). assert (H4 := Hc KConfounding).
      cbn [weight_of] in *. apply Forall_app. split; [repeat (apply Forall_cons; [unfold v; cbn [validate_operators oc_clusters oc_weights oc_cluster_effect oc_confounding_effects oc_source]; lra|]); apply Forall_nil|]. apply Forall_map, Forall_forall. intros k _. apply Qmult_le_0_compat; auto.
    + intros HN. rewrite map_app. rewrite (map_map (fun k => (s_ "alter_confounding_effects_" ++ k, _)) fst). cbn [fst].
      apply prefix_disjoint with (P := fun x => startswith (s_ "alter_confounding_effects_") x = false); auto.
      * intros x Hx. cbn [map fst] in Hx. repeat (destruct Hx as [<-|Hx]; [reflexivity|]). destruct Hx.
      * intros k. rewrite startswith_app. discriminate.
      * cbn [map fst]. repeat constructor; cbn [In]; intros Hx; repeat (destruct Hx as [Hx|Hx]; [discriminate Hx|]); exact Hx.
Qed.
(** The probabilities are a distribution, and the operators of every kind have together the share of the
    configured weight: if there is a confounder.  Missing for the full statement: models without confounders,
    for which it is false. *)
Theorem C50_distribution_partial src confs c : confs <> [] -> NoDup confs -> config_ok c ->
  (exists k, 0 < weight_of (validate_operators src c) k)%Q ->
  exists ops, get_operators src confs (validate_operators src c) = Some ops /\
    NoDup (map fst ops) /\ Forall (fun '(_, w) => (0 <= w)%Q) ops /\ (Qsum (map snd ops) == 1)%Q /\
    forall k, (share ops k == weight_of (validate_operators src c) k / total_weight (validate_operators src c))%Q.
Proof.
  intros Hne HN Hc (k0 & Hk0). unfold get_operators.
  destruct (raw_operators src confs (validate_operators src c)) as [ops|] eqn:E; [|unfold raw_operators in E; destruct confs; [congruence|discriminate]].
  destruct (raw_spec E) as (Hs & Ht & Hnn & Hnd). specialize (Hnn Hc). specialize (Hnd HN).
  assert (Hpos : (0 < total_weight (validate_operators src c))%Q).
  { assert (Hv : config_ok (validate_operators src c)).
    { intros k. destruct src; [apply Hc|]. destruct k; simpl; try apply Qle_refl; [apply (Hc KClusters)|apply (Hc KWeights)|apply (Hc KClusterEffect)|apply (Hc KConfounding)]. }
    assert (H1 := Hv KClusters). assert (H2 := Hv KWeights). assert (H3 := Hv KClusterEffect). assert (H4 := Hv KConfounding). assert (H5 := Hv KSource).
    unfold total_weight. destruct k0; simpl in *; lra. }
  unfold normalize_operator_weights. set (t := Qsum (map snd ops)) in *.
  assert (Ht0 : ~ (t == 0)%Q) by lra. destruct (Qeq_bool t 0) eqn:Et; [apply Qeq_bool_iff in Et; contradiction|].
  eexists. split; [reflexivity|]. 
  assert (Hdiv : forall l : list (str * Q), (Qsum (map snd (map (fun '(n, w) => (n, (w / t)%Q)) l)) == Qsum (map snd l) / t)%Q).
  { induction l as [|(a, w) l IH]; simpl; [field; auto|]. rewrite IH. field; auto. }
  conj.
  - rewrite map_map. rewrite (map_ext _ fst) by (intros (a, w); reflexivity). exact Hnd.
  - apply Forall_map. eapply Forall_impl; [|exact Hnn]. intros (a, w) Hw. apply Qle_shift_div_l; [lra|]. lra.
  - rewrite Hdiv. fold t. field; auto.
  - intros k. rewrite <- (Hs k), <- Ht. unfold share.
    assert (Ef : filter (fun '(n, _) => if kind_dec (kind_of n) k then true else false) (map (fun '(n, w) => (n, (w / t)%Q)) ops)
               = map (fun '(n, w) => (n, (w / t)%Q)) (filter (fun '(n, _) => if kind_dec (kind_of n) k then true else false) ops)).
    { generalize t kind_of. clear. intros t kf. induction ops as [|(a, w) l IH]; cbn [map filter]; auto. destruct (kind_dec (kf a) k); cbn [map]; congruence. }
    rewrite Ef, Hdiv. reflexivity.
Qed.
Print Assumptions C50_distribution_partial.
(** Without confounders there are no operators, whatever the weights. *)
Theorem C50_no_confounders_refuted : exists c, config_ok c /\ (exists k, 0 < weight_of c k)%Q /\ forall src, get_operators src [] (validate_operators src c) = None.
Proof.
  exists {| oc_clusters := 45; oc_weights := 15; oc_cluster_effect := 5; oc_confounding_effects := 15; oc_source := 10 |}. conj.
  - intros k. destruct k; vm_compute; discriminate.
  - exists KClusters. reflexivity.
  - intros src. reflexivity.
Qed.
Print Assumptions C50_no_confounders_refuted.
Example C50_demo : exists ops, get_operators true [s_ "family"; s_ "universal"]
    {| oc_clusters := 45; oc_weights := 15; oc_cluster_effect := 5; oc_confounding_effects := 15; oc_source := 10 |} = Some ops /\
  length ops = 7 /\ (share ops KClusters == 1#2)%Q /\ NoDup [s_ "family"; s_ "universal"].
Proof. eexists. conj; try (vm_compute; reflexivity). repeat constructor; cbn [In]; intuition discriminate. Qed.
