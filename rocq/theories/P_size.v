(** Property theorems C35: the prior on cluster sizes. *)
From Verif Require Import M_size S_size L_operators L_size.
From Coq Require Import Lra Permutation.
Open Scope nat_scope.

(** C35. For sizes with a sum of at most [n], [log_multinom] is defined and its exponential is the number
    of labelled disjoint clusterings with these sizes: the length of any list that contains each of them
    exactly once (and there is such a list). *)
Theorem C35_log_multinom : forall n ks, list_sum ks <= n ->
  (exists l, lists_clusterings n ks l) /\
  forall l, lists_clusterings n ks l -> exists m, log_multinom n ks = Some m /\ exp m = INR (length l).
Proof.
  intros n ks H. split; [exists (gen n ks); apply gen_lists|]. intros l Hl. rewrite (lists_length Hl). exact (log_multinom_exp H).
Qed.
Print Assumptions C35_log_multinom.

(** Hence the uniform-size prior gives all clusterings with the same sizes a total mass of one. *)
Theorem C35_total_mass : forall n ks l, list_sum ks <= n -> lists_clusterings n ks l ->
  exists ps, map (fun cl => option_map exp (cluster_size_prior UniformSize n cl)) l = map Some ps /\ Rsum ps = 1%R.
Proof.
  intros n ks l H Hl. destruct (log_multinom_exp H) as (m & Hm & He). rewrite <- (lists_length Hl) in He.
  exists (map (fun _ => exp (- m)) l). split.
  - rewrite map_map. apply map_ext_in. intros cl Hcl. apply Hl in Hcl as (_ & _ & Hk).
    unfold cluster_size_prior. cbv zeta. rewrite (map_ext size (fun c => count_occ Bool.bool_dec c true)).
    + rewrite Hk, Hm. reflexivity.
    + intros c. rewrite size_count. reflexivity.
  - assert (S : forall (l : list bmat) x, Rsum (map (fun _ => x) l) = (INR (length l) * x)%R).
    { induction l0 as [|a l0 IH]; intros x; [simpl; lra|]. change (length (a :: l0)) with (S (length l0)). rewrite S_INR.
      cbn [map Rsum fold_right]. specialize (IH x). unfold Rsum in IH. rewrite IH. lra. }
    rewrite S, <- He, exp_Ropp. apply Rinv_r. pose proof (exp_pos m). lra.
Qed.
Print Assumptions C35_total_mass.

(** Product of the squared numbers of members. *)
Fixpoint squares (cl : bmat) : nat :=
  match cl with [] => 1 | c :: r => count_occ Bool.bool_dec c true * count_occ Bool.bool_dec c true * squares r end.
(** The quadratic prior is the inverse of the product of the squared sizes (infinite for empty clusters),
    the uniform-area prior is constant. *)
Theorem C35_quadratic : forall n cl, (forall c, In c cl -> 0 < count_occ Bool.bool_dec c true) ->
  exists v, cluster_size_prior QuadraticSize n cl = Some v /\
    (exp v * INR (squares cl) = 1)%R.
Proof.
  intros n cl H. unfold cluster_size_prior. cbv zeta.
  rewrite (map_ext size (fun c => count_occ Bool.bool_dec c true)) by (intros; rewrite size_count; reflexivity).
  destruct (existsb _ _) eqn:E.
  { apply existsb_exists in E as (k & Hk & E). apply in_map_iff in Hk as (c & <- & Hc). specialize (H c Hc). apply Nat.eqb_eq in E. lia. }
  eexists. split; [reflexivity|]. clear E. induction cl as [|c cl IH]; [unfold Rsum, squares; simpl; rewrite Ropp_0, exp_0; lra|].
  cbn [map squares fold_right Rsum]. rewrite !mult_INR. rewrite Ropp_plus_distr, exp_plus.
  pose proof (H c (or_introl eq_refl)) as Hc. set (k := count_occ Bool.bool_dec c true) in *.
  assert (Hk : (0 < INR k)%R) by (apply lt_0_INR; auto). replace (INR (k ^ 2)) with (INR k * INR k)%R by (cbn [Nat.pow]; rewrite Nat.mul_1_r, mult_INR; reflexivity).
  rewrite exp_Ropp, exp_ln by (apply Rmult_lt_0_compat; auto).
  assert (IH' := IH (fun c' Hc' => H c' (or_intror Hc'))). unfold Rsum in IH'.
  set (x := exp _) in *. transitivity (x * INR (squares cl))%R; [|exact IH']. field. lra.
Qed.
Print Assumptions C35_quadratic.
Example C35_quadratic_case : forall c, In c [[true; true; false]; [false; false; true]] -> 0 < count_occ Bool.bool_dec c true.
Proof. intros c [<-|[<-|[]]]; simpl; lia. Qed.

(** None of the size priors depends on the labels of the clusters. *)
Theorem C35_labels : forall t n cl cl', Permutation cl cl' -> cluster_size_prior t n cl = cluster_size_prior t n cl'.
Proof. exact size_prior_perm. Qed.
Print Assumptions C35_labels.

(** Three objects, clusters of sizes 1 and 1: six clusterings, prior 1/6. *)
Example C35_case : exists l, lists_clusterings 3 [1; 1] l /\ length l = 6 /\ clustering 3 [1; 1] [[true; false; false]; [false; false; true]].
Proof.
  exists (gen 3 [1; 1]). split; [apply gen_lists|]. split; [reflexivity|]. apply gen_spec. vm_compute. auto 10.
Qed.
(** The empty clusters, which the implementation treats separately. *)
Example C35_empty_case : exists l, lists_clusterings 3 [0; 2] l /\ length l = 3.
Proof. exists (gen 3 [0; 2]). split; [apply gen_lists|reflexivity]. Qed.
