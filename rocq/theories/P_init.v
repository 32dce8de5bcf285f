(** Property theorems C22-C24 and C57: initial clusters and effects. *)
From Verif Require Import M_init S_init L_init.
Open Scope nat_scope.

(** A network: the path 0-1-2-3-4 with an additional isolated pair 5-6. *)
Definition path_adj : bmat :=
  map (fun i => map (fun j => ((i =? S j) || (j =? S i)) && negb ((i =? 5) && (j =? 4)) && negb ((i =? 4) && (j =? 5))) (seq 0 7)) (seq 0 7).
Lemma symmetric_compute adj : forallb (fun r => length r <=? length adj) adj = true ->
  forallb (fun a => forallb (fun b => implb (nth b (nth a adj []) false) (nth a (nth b adj []) false)) (seq 0 (length adj))) (seq 0 (length adj)) = true ->
  symmetric adj.
Proof.
  intros Hr H a b Hab. rewrite forallb_forall in H, Hr.
  assert (Ha : a < length adj).
  { destruct (Nat.lt_ge_cases a (length adj)); auto. rewrite (nth_overflow adj) in Hab by auto. unfold member in Hab. destruct b; discriminate. }
  assert (Hb : b < length adj).
  { pose proof (member_lt Hab). pose proof (Hr _ (nth_In adj [] Ha)) as Hl. apply Nat.leb_le in Hl. lia. }
  specialize (H a). rewrite in_seq in H. specialize (H ltac:(lia)). rewrite forallb_forall in H.
  specialize (H b). rewrite in_seq in H. specialize (H ltac:(lia)). unfold member in *. rewrite Hab in H. exact H.
Qed.
Lemma path_symmetric : symmetric path_adj.
Proof. apply symmetric_compute; reflexivity. Qed.

(** C22. Whatever the random choices and failed attempts: if clusters are returned, they are
    disjoint, the clusters of the previous sample come first, and all others have exactly [k] sites and
    are connected in the network.  [fuel] bounds the iterations of [while True]; see C23. *)
Theorem C22_initial_clusters : forall n adj k n_clusters rnd prev fuel cl,
  1 <= k -> length adj = n -> Forall (fun c => length c = n) prev -> disjoint_groups prev ->
  generate_initial_clusters n adj k n_clusters rnd prev fuel = Some (Clusters_ok cl) -> 0 < n_clusters ->
  cluster_shape n_clusters n cl /\ firstn (length prev) cl = prev /\ disjoint_groups cl /\
  forall i, length prev <= i < n_clusters -> size (nth i cl []) = k /\ connected adj (nth i cl []).
Proof. exact initial_clusters_spec. Qed.
Print Assumptions C22_initial_clusters.

(** Two previous sites, two new clusters of size 2; the first attempt fails. *)
Definition demo_prev : bmat := [[true; true; false; false; false; false; false]].
Definition demo_rnd (t : nat) : nat := match t with 0 => 0 | 1 => 1 | 2 => 0 | _ => 0 end.
Example C22_case : exists cl, generate_initial_clusters 7 path_adj 2 3 demo_rnd demo_prev 1001 = Some (Clusters_ok cl) /\
  cl = [[true; true; false; false; false; false; false]; [false; false; true; true; false; false; false];
        [false; false; false; false; false; true; true]].
Proof. eexists. split; vm_compute; reflexivity. Qed.

(** C23, termination: 1001 iterations always suffice and the result does not depend on further fuel;
    the only exceptions are ValueError and, for too many previous clusters, IndexError. *)
Theorem C23_terminates : forall n adj k n_clusters rnd prev,
  1 <= k -> length adj = n -> Forall (fun c => length c = n) prev -> disjoint_groups prev ->
  exists r, forall fuel, 1001 <= fuel -> generate_initial_clusters n adj k n_clusters rnd prev fuel = Some r.
Proof. exact initial_clusters_terminate. Qed.
Print Assumptions C23_terminates.

(** C23, undoing of failed attempts is false: after a failed attempt the sites it visited stay marked.
    In [path_adj] without previous clusters, seed 5 cannot be grown to 3 sites; in the next iteration
    of the loop 5 and 6 are not available. *)
Theorem C23_undo_refuted : exists n adj k n_clusters rnd st',
  length adj = n /\ symmetric adj /\
  for_loop n adj k rnd (seq 0 n_clusters) (start n n_clusters []) = (false, st') /\
  n_generated st' = 0 /\ initial_clusters st' = initial_clusters (start n n_clusters []) /\
  free_sites n (occupied st') <> free_sites n (occupied (start n n_clusters [])).
Proof.
  exists 7, path_adj, 3, 1, (fun t => match t with 0 => 5 | _ => 0 end). eexists. conj.
  - reflexivity.
  - exact path_symmetric.
  - vm_compute. reflexivity.
  - reflexivity.
  - reflexivity.
  - vm_compute. discriminate.
Qed.
Print Assumptions C23_undo_refuted.

(** What holds instead: the lost sites are useless.  With at most 1000 sites and a symmetric network,
    if ValueError is raised then no connected set of [k] or more sites outside the clusters generated
    so far exists. *)
Theorem C23_undo_partial : forall n adj k n_clusters rnd prev fuel st,
  1 <= k -> length adj = n -> Forall (fun c => length c = n) prev -> disjoint_groups prev ->
  generate_initial_clusters n adj k n_clusters rnd prev fuel = Some (Value_error st) ->
  symmetric adj -> n <= 1000 ->
  n_generated st < n_clusters /\
  forall c, length c = n -> connected adj c -> k <= size c -> ~ apart c (initial_clusters st).
Proof. exact initial_clusters_error. Qed.
Print Assumptions C23_undo_partial.

(** C57 is false: initial clusters may exist and the initialisation still fails, because clusters
    generated before the failure are kept in all later attempts.  On the path 0-1-2-3 with two clusters
    of size 2 the first cluster [{1, 2}] blocks both ends. *)
Definition path4 : bmat := map (fun i => map (fun j => (i =? S j) || (j =? S i)) (seq 0 4)) (seq 0 4).
Theorem C57_finds_clusters_refuted : exists n adj k n_clusters rnd rnd' cl st,
  length adj = n /\ 1 <= k /\
  generate_initial_clusters n adj k n_clusters rnd [] 1001 = Some (Clusters_ok cl) /\
  generate_initial_clusters n adj k n_clusters rnd' [] 1001 = Some (Value_error st).
Proof.
  exists 4, path4, 2, 2, (fun _ => 0), (fun t => match t with 0 => 1 | 1 => 1 | _ => 0 end). do 2 eexists. conj.
  - reflexivity.
  - lia.
  - vm_compute. reflexivity.
  - vm_compute. reflexivity.
Qed.
Print Assumptions C57_finds_clusters_refuted.

(** It holds when a single cluster has to be added (network symmetric, at most 1000 sites). *)
Theorem C57_finds_clusters_partial : forall n adj k rnd prev c,
  1 <= k -> length adj = n -> Forall (fun c => length c = n) prev -> disjoint_groups prev -> symmetric adj -> n <= 1000 ->
  length c = n -> connected adj c -> k <= size c -> apart c prev ->
  exists cl, generate_initial_clusters n adj k (S (length prev)) rnd prev 1001 = Some (Clusters_ok cl).
Proof. exact single_cluster_found. Qed.
Print Assumptions C57_finds_clusters_partial.
Example C57_case : connected path_adj [false; false; false; false; false; true; true] /\ apart [false; false; false; false; false; true; true] demo_prev.
Proof.
  split.
  - apply (@connected_mark path_adj (mark 5 (zeros 7)) 6 5); [simpl; lia|reflexivity|left; reflexivity|apply connected_single; lia].
  - intros o i. unfold member. destruct i as [|[|i]]; simpl; [|destruct o; discriminate|destruct o; discriminate].
    do 7 (destruct o as [|o]; simpl; try discriminate). destruct o; discriminate.
Qed.

(** The error case of C23 occurs (the same network); the hypotheses hold there. *)
Example C23_case : exists st, generate_initial_clusters 4 path4 2 2 (fun t => match t with 0 => 1 | 1 => 1 | _ => 0 end) [] 1001 = Some (Value_error st) /\
  symmetric path4 /\ occupied st = [true; true; true; true] /\ n_generated st = 1.
Proof.
  eexists. conj; [vm_compute; reflexivity| |reflexivity|reflexivity].
  apply symmetric_compute; reflexivity.
Qed.

Open Scope Q_scope.
(** C24. For all data whose observed states are applicable, all groups and all features with at
    least one applicable state. *)
Theorem C24_initial_effects : forall features group applicable f app,
  observed_applicable features applicable -> nth_error applicable f = Some app -> In true app ->
  exists v, nth_error (initial_effect features group applicable) f = Some (Some v) /\ on_states app v.
Proof. exact initial_effect_spec. Qed.
Print Assumptions C24_initial_effects.
Lemma observed_compute features applicable :
  forallb (fun row => forallb (fun f => forallb (fun s => implb (nth s (nth f row []) false) (nth s (nth f applicable []) false))
    (seq 0 (length (nth f row [])))) (seq 0 (length row))) features = true -> observed_applicable features applicable.
Proof.
  intros H o f s Hs. rewrite forallb_forall in H.
  pose proof (member_lt Hs) as L1. assert (L2 : (f < length (nth o features []))%nat).
  { destruct (Nat.lt_ge_cases f (length (nth o features []))); auto. rewrite (nth_overflow (nth o features [])) in L1 by auto. simpl in L1. lia. }
  assert (L3 : (o < length features)%nat).
  { destruct (Nat.lt_ge_cases o (length features)); auto. rewrite (nth_overflow features) in L2 by auto. simpl in L2. lia. }
  specialize (H _ (nth_In _ [] L3)). rewrite forallb_forall in H. specialize (H f). rewrite in_seq in H. specialize (H ltac:(lia)).
  rewrite forallb_forall in H. specialize (H s). rewrite in_seq in H. specialize (H ltac:(lia)). rewrite Hs in H. exact H.
Qed.
Example C24_case :
  let features := [[[true; false; false]]; [[true; false; false]]; [[false; false; false]]] in
  observed_applicable features [[true; true; false]] /\
  nth_error (initial_effect features [true; true; true] [[true; true; false]]) 0 = Some (Some [(2 + 1) / 4; 1 / 4; 0 / 4]).
Proof.
  split.
  - apply observed_compute. reflexivity.
  - vm_compute. reflexivity.
Qed.

(** C58 is false: nothing relates the initial size to the size bounds.  With minimum 3 and initial
    size 2 (or maximum 1) all settings are accepted and the initial clusters violate the bounds. *)
Theorem C58_initial_sizes_refuted : exists n adj k n_clusters rnd cl mn mx mn' mx',
  length adj = n /\ (mn <= mx)%nat /\ (mn' <= mx')%nat /\ sizes_validated mn mx k /\ sizes_validated mn' mx' k /\
  generate_initial_clusters n adj k n_clusters rnd [] 1001 = Some (Clusters_ok cl) /\
  Forall (fun c => (size c < mn)%nat) cl /\ Forall (fun c => (mx' < size c)%nat) cl.
Proof.
  exists 4%nat, path4, 2%nat, 2%nat, (fun _ => 0%nat). eexists. exists 3%nat, 4%nat, 1%nat, 1%nat. unfold sizes_validated. conj; try lia.
  - reflexivity.
  - vm_compute. reflexivity.
  - repeat constructor.
  - repeat constructor.
Qed.
Print Assumptions C58_initial_sizes_refuted.
