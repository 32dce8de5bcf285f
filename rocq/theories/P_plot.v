(** Properties of the plots: C79 (maps), C80 (pie charts). *)
From Coq Require Import Lqa.
From Verif Require Import M_plot S_plot L_loggers L_names L_plot.
Close Scope Q_scope.
Open Scope nat_scope.

(** * C79: maps *)
(** The consensus map of one cluster: with [kept] the samples after the burn-in (rounded up), the objects of the
    graph are those in at least the fraction [t] of the kept samples (none if there are no samples); a line joins two
    different objects of the graph and its weight is the fraction of the kept samples with both; every pair is joined at most
    once.  Up to three objects are all joined; of more objects, those which the triangulation joins and which have no
    other object of the graph between them. *)
Theorem C79_consensus : forall delaunay t b locations cluster g lines, square_matrix delaunay -> (0 <= b)%Q -> (b <= 1)%Q ->
  clusters_to_graph delaunay (Consensus t) b locations cluster = Some (g, lines) ->
  exists i, i <= length cluster /\ rounded_up b (length cluster) i /\
    let kept := skipn i cluster in
    let objs := filter (fun o => nth o g false) (seq 0 (length locations)) in
    let pts := map (fun o => nth o locations (0, 0)%Q) objs in
    let adjacent i j := nth j (nth i (delaunay pts) []) false = true in
    length g = length locations /\
    (kept = [] -> forall o, nth o g false = false) /\
    (kept <> [] -> forall o, o < length locations -> (nth o g false = true <-> (t <= frequency (has o) kept)%Q)) /\
    (forall p q w, In (p, q, w) lines -> p <> q /\ nth p g false = true /\ nth q g false = true /\
       w = Some (frequency (has_both p q) kept) /\ (2 * t - 1 <= frequency (has_both p q) kept)%Q) /\
    NoDup (map (fun l => edge (fst (fst l)) (snd (fst l))) lines) /\
    (forall i j, i < j -> j < length objs -> (In (nth i objs 0, nth j objs 0) (map (fun l => edge (fst (fst l)) (snd (fst l))) lines) <->
       length objs <= 3 \/ (adjacent i j \/ adjacent j i) /\ clear_middle pts (nth i pts (0, 0)%Q) (nth j pts (0, 0)%Q))).
Proof.
  intros delaunay t b locations cluster g lines Hsq H0 H1 H. unfold clusters_to_graph in H.
  destruct (@after_burn_in_spec _ b cluster H0 H1) as (i & Hi & Hr & Ek). rewrite Ek in H. exists i. conj; auto.
  set (kept := skipn i cluster) in *. cbv zeta.
  destruct (graph_connections delaunay (Consensus t) (length locations) _) as [edges|] eqn:Ee in H; [|discriminate].
  assert (Eg : in_graph (Consensus t) (length locations) kept = g) by congruence. rewrite Eg in H, Ee. assert (El := f_equal (option_map snd) H). cbn [option_map snd] in El. clear H. injection El as El. set (objs := filter (fun o => nth o g false) (seq 0 (length locations))) in *.
  set (pts := map (fun o => nth o locations (0, 0)%Q) objs) in *. assert (Lp : length pts = length objs) by apply map_length.
  assert (Lg : length g = length locations) by (subst g; unfold in_graph; rewrite map_length, seq_length; reflexivity).
  assert (Gspec : forall o, o < length locations -> nth o g false = match ratio (count_member o kept) (length kept) with Some q => Qle_bool t q | None => false end).
  { intros o Ho. subst g. unfold in_graph. set (f := fun o => match ratio (count_member o kept) (length kept) with Some q => Qle_bool t q | None => false end).
    rewrite (nth_indep _ false (f 0)) by (rewrite map_length, seq_length; auto). rewrite map_nth, seq_nth by auto. reflexivity. }
  assert (Mem : kept <> [] -> forall o, o < length locations -> (nth o g false = true <-> (t <= frequency (has o) kept)%Q)).
  { intros Hk o Ho. rewrite (Gspec o Ho). unfold count_member. rewrite (@ratio_frequency _ (fun s => nth o s false) kept Hk). apply Qle_bool_iff. }
  assert (Hsort : Sorted.StronglySorted lt objs) by (apply filter_sorted, seq_sorted).
  assert (Hno : kept = [] -> forall o, nth o g false = false).
  { intros Hk o. destruct (Nat.lt_ge_cases o (length locations)) as [Ho|Ho]; [|apply nth_overflow; lia].
    rewrite (Gspec o Ho), Hk. reflexivity. }
  destruct (@consensus_connections delaunay Hsq pts t (length locations) edges Ee) as (C1 & C2 & C3). rewrite Lp in C2, C3.
  assert (Edges : map (fun l => edge (fst (fst l)) (snd (fst l))) lines = map (fun e => (nth (fst e) objs 0, nth (snd e) objs 0)) (map undirected edges)).
  { subst lines. rewrite !map_map. apply map_ext_in. intros e He. cbn [fst snd]. destruct (C2 e He) as (_ & A & B).
    rewrite (edge_nth Hsort A B). reflexivity. }
  conj; auto.
  - intros p q w Hin. subst lines. apply in_map_iff in Hin as (e & E & He). injection E as <- <- <-.
    destruct (C2 e He) as (N & A & B).
    assert (Ip : In (nth (fst e) objs 0) objs) by (apply nth_In; auto). assert (Iq : In (nth (snd e) objs 0) objs) by (apply nth_In; auto).
    set (p := nth (fst e) objs 0) in *. set (q := nth (snd e) objs 0) in *.
    apply indices_in in Ip as [Hp Gp]. apply indices_in in Iq as [Hq Gq].
    assert (Hk : kept <> []) by (intros Hk; rewrite (Hno Hk p) in Gp; discriminate).
    assert (W : ratio (count_both p q kept) (length kept) = Some (frequency (has_both p q) kept)) by apply (@ratio_frequency _ (fun s => nth p s false && nth q s false) kept Hk).
    conj; auto.
    + intros Epq. apply N. apply (nth_inj Hsort A B Epq).
    + pose proof (proj1 (Mem Hk p Hp) Gp) as M1. pose proof (proj1 (Mem Hk q Hq) Gq) as M2.
      pose proof (@frequency_and _ (has p) (has q) kept Hk) as M3. change (frequency (fun x => has p x && has q x) kept) with (frequency (has_both p q) kept) in M3. lra.
  - rewrite Edges. clear - C1 C2 Hsort.
    assert (B : forall e, In e (map undirected edges) -> fst e < length objs /\ snd e < length objs).
    { intros e He. apply in_map_iff in He as ((a & c) & <- & He). apply C2 in He. cbn [fst snd] in He. unfold undirected, edge. cbn [fst snd]. lia. }
    revert C1 B. generalize (map undirected edges) as es. induction es as [|e r IH]; intros Hn B; simpl; [constructor|]. inversion Hn as [|? ? He Hr]; subst.
    constructor; [|apply IH; auto; intros x Hx; apply B; right; auto].
    rewrite in_map_iff. intros (x & E & Hx). injection E as E1 E2. destruct (B e (or_introl eq_refl)). destruct (B x (or_intror Hx)).
    apply He. destruct x, e. cbn [fst snd] in *. rewrite <- (nth_inj Hsort (i := n) (j := n1)), <- (nth_inj Hsort (i := n0) (j := n2)); auto.
  - intros k j Hkj Hj. rewrite Edges. rewrite <- (C3 k j Hkj Hj). rewrite in_map_iff. split.
    + intros ((a & c) & E & Hx). injection E as E1 E2. cbn [fst snd] in *. pose proof Hx as Hx'. apply in_map_iff in Hx' as ((u & v) & Eu & Hu).
      apply C2 in Hu. cbn [fst snd] in Hu. unfold undirected, edge in Eu. cbn [fst snd] in Eu. injection Eu as Eu1 Eu2.
      rewrite (nth_inj Hsort (i := k) (j := a)), (nth_inj Hsort (i := j) (j := c)); auto; lia.
    + intros Hx. exists (k, j). auto.
Qed.
Print Assumptions C79_consensus.
(** Six objects, five samples, burn-in 20%: after the first sample, objects 0 to 4 are in the cluster in at least three
    of four samples, object 5 in two.  With a triangulation that joins all, the line from 0 to 3 is missing, since object 4 is
    between them. *)
Definition join_all (ls : list point) : list (list bool) := map (fun i => map (fun j => negb (i =? j)) (seq 0 (length ls))) (seq 0 (length ls)).
Lemma join_all_square : square_matrix join_all.
Proof.
  intros ls. unfold join_all. conj.
  - rewrite map_length, seq_length. reflexivity.
  - apply Forall_forall. intros r Hr. apply in_map_iff in Hr as (i & <- & _). rewrite map_length, seq_length. reflexivity.
  - intros i. set (f := fun i => map (fun j => negb (i =? j)) (seq 0 (length ls))). destruct (Nat.lt_ge_cases i (length ls)) as [H|H].
    + rewrite (nth_indep _ [] (f 0)) by (rewrite map_length, seq_length; auto). rewrite (map_nth f), seq_nth by auto. unfold f. cbn [Nat.add].
      rewrite (nth_indep _ false (negb (i =? 0))) by (rewrite map_length, seq_length; auto). rewrite (map_nth (fun j => negb (i =? j))), seq_nth by auto.
      rewrite Nat.eqb_refl. reflexivity.
    + rewrite (nth_overflow (map f _)) by (rewrite map_length, seq_length; auto). destruct i; reflexivity.
Qed.
Definition demo_places : list point := [(0, 0); (4, 0); (0, 4); (4, 4); (2, 2); (9, 1)]%Q.
Definition demo_cluster : list (list bool) :=
  [[false; false; false; false; false; true]; [true; true; true; true; true; true]; [true; true; true; true; true; true];
   [true; true; true; false; true; false]; [true; false; true; true; true; false]].
Example C79_consensus_case : exists g lines, clusters_to_graph join_all (Consensus (6 # 10)) (2 # 10) demo_places demo_cluster = Some (g, lines) /\
  g = [true; true; true; true; true; false] /\
  map fst lines = [(0, 1); (0, 2); (0, 4); (1, 3); (1, 4); (2, 3); (2, 4); (3, 4)] /\
  (frequency (has_both 1 3) (skipn 1 demo_cluster) == 1 # 2)%Q.
Proof. eexists. eexists. conj; [vm_compute; reflexivity|reflexivity|reflexivity|reflexivity]. Qed.

(** The map of a cluster is drawn (without exception) if it has at most three objects or the triangulation has a line. *)
Theorem C79_drawn : forall (delaunay : list point -> list (list bool)) t b (locations : list point) cluster,
  let g := in_graph (Consensus t) (length locations) (after_burn_in b cluster) in
  let pts : list point := map (fun o => nth o locations (0, 0)%Q) (filter (fun o => nth o g false) (seq 0 (length locations))) in
  length pts <= 3 \/ (exists i j, nth j (nth i (delaunay pts) []) false = true) ->
  exists lines, clusters_to_graph delaunay (Consensus t) b locations cluster = Some (g, lines).
Proof.
  intros delaunay t b locations cluster g pts H. unfold clusters_to_graph. fold g. fold pts.
  assert (E : exists edges, graph_connections delaunay (Consensus t) (length locations) pts = Some edges).
  { unfold graph_connections. destruct (Nat.ltb_spec 3 (length pts)) as [H3|H3].
    - destruct H as [H|(i & j & H)]; [lia|]. apply entries_in in H. unfold gabriel_graph.
      destruct (connections_spec (delaunay pts)) as (_ & _ & C). apply C in H. destruct (delaunay_connections (delaunay pts)); [destruct H|eauto].
    - destruct (length pts =? 3); eauto. destruct (length pts =? 2); eauto. }
  destruct E as (edges & ->). eauto.
Qed.
Print Assumptions C79_drawn.
Example C79_drawn_case : exists i j, nth j (nth i (join_all [(0, 0); (4, 0); (0, 4); (4, 4); (2, 2)]%Q) []) false = true.
Proof. exists 0, 1. reflexivity. Qed.

(** The density map of one cluster: all objects, every pair joined once, by a line with the fraction of the kept
    samples with both (NaN without samples). *)
Theorem C79_density : forall delaunay b locations cluster, (0 <= b)%Q -> (b <= 1)%Q ->
  exists i lines, i <= length cluster /\ rounded_up b (length cluster) i /\
    let kept := skipn i cluster in
    clusters_to_graph delaunay Density b locations cluster = Some (repeat true (length locations), lines) /\
    NoDup (map fst lines) /\
    forall p q w, In (p, q, w) lines <-> p < q /\ q < length locations /\
      w = match kept with [] => None | _ => Some (frequency (has_both p q) kept) end.
Proof.
  intros delaunay b locations cluster H0 H1. destruct (@after_burn_in_spec _ b cluster H0 H1) as (i & Hi & Hr & Ek). exists i.
  unfold clusters_to_graph. rewrite Ek. set (kept := skipn i cluster). set (n := length locations). cbn [in_graph graph_connections].
  assert (Ei : filter (fun o => nth o (repeat true n) false) (seq 0 n) = seq 0 n).
  { assert (A : forall o, In o (seq 0 n) -> nth o (repeat true n) false = true).
    { intros o Ho. apply in_seq in Ho. rewrite (nth_indep _ false true) by (rewrite repeat_length; lia). apply nth_repeat. }
    revert A. generalize (seq 0 n) as l. induction l as [|x r IH]; intros A; auto. cbn [filter]. rewrite (A x (or_introl eq_refl)). f_equal. apply IH. intros o Ho. apply A. right; auto. }
  rewrite Ei. eexists. conj; auto.
  - rewrite map_map. rewrite (map_ext_in _ (fun e => e)).
    + rewrite map_id. apply NoDup_filter. assert (NP : forall (u v : list nat), NoDup u -> NoDup v -> NoDup (list_prod u v)).
      { intros u v Hu Hv. induction Hu as [|x u Hx Hu IHu]; simpl; [constructor|].
        assert (App : forall (l m : list (nat * nat)), NoDup l -> NoDup m -> (forall x, In x l -> ~ In x m) -> NoDup (l ++ m)).
        { intros l m Hl Hm Hd. induction Hl as [|y l Hy Hl IHl]; simpl; auto. constructor.
          - rewrite in_app_iff. intros [H|H]; [auto|]. apply (Hd y); auto. left; auto.
          - apply IHl. intros z Hz. apply Hd. right; auto. }
        apply App; auto.
        - apply FinFun.Injective_map_NoDup; auto. intros a c E. congruence.
        - intros e He Hin. apply in_map_iff in He as (y & <- & _). apply in_prod_iff in Hin as [Hin _]. auto. }
      apply NP; apply seq_NoDup.
    + intros [a c] He. apply filter_In in He as [He _]. apply in_prod_iff in He as [Ha Hc]. apply in_seq in Ha, Hc. cbn [fst snd]. rewrite !seq_nth by lia. reflexivity.
  - intros p q w. rewrite in_map_iff.
    assert (W : ratio (count_both p q kept) (length kept) = match kept with [] => None | _ => Some (frequency (has_both p q) kept) end).
    { destruct kept as [|s r] eqn:E; [reflexivity|]. apply (@ratio_frequency _ (fun s => nth p s false && nth q s false) (s :: r)). discriminate. }
    split.
    + intros ((a & c) & E & He). apply filter_In in He as [He Hlt]. apply in_prod_iff in He as [Ha Hc]. apply in_seq in Ha, Hc. cbn [fst snd] in *.
      rewrite !seq_nth in E by lia. cbn [Nat.add] in E. injection E as <- <- <-. apply Nat.ltb_lt in Hlt. conj; auto. lia.
    + intros (Hpq & Hq & ->). exists (p, q). cbn [fst snd]. rewrite !seq_nth by lia. cbn [Nat.add]. rewrite W. split; auto.
      apply filter_In. cbn [fst snd]. split; [|apply Nat.ltb_lt; auto]. apply in_prod_iff. rewrite !in_seq. unfold n. lia.
Qed.
Print Assumptions C79_density.
Example C79_density_case : exists lines, clusters_to_graph join_all Density (2 # 10) demo_places demo_cluster = Some (repeat true 6, lines) /\
  length lines = 15 /\ rounded_up (2 # 10) 5 1 /\ (exists w, In (1, 3, Some w) lines /\ (w == 1 # 2)%Q).
Proof.
  eexists. conj; [vm_compute; reflexivity|reflexivity|split; vm_compute; congruence|]. eexists. split; [|instantiate (1 := (2 # 4)%Q); reflexivity].
  simpl. tauto.
Qed.

(** Which samples are used: the reader drops the burn-in (rounded down) and the map drops the burn-in of the rest. *)
Lemma drop_skip (b : Q) n (clusters : list bmat) : clusters <> [] -> same_samples n clusters -> (0 <= b)%Q -> (b <= 1)%Q ->
  exists i, i <= n /\ rounded_down b n i /\ fst (drop_burnin clusters (@nil unit) b) = map (skipn i) clusters.
Proof.
  intros Hne Hs H0 H1. destruct (@burnin_index b n H0 H1) as (i & Hi & Hle & Hlo & Hhi). exists i. conj; auto.
  - unfold rounded_down. rewrite inject_Z_plus in Hhi. split; auto.
  - unfold drop_burnin. destruct clusters as [|c r]; [congruence|]. inversion Hs as [|? ? Hc _]; subst. rewrite Hi. cbn [fst]. apply map_ext. intros l. apply slice_nat.
Qed.
Lemma graph_shift delaunay c b locations i j cluster : after_burn_in b (skipn i cluster) = skipn j (skipn i cluster) ->
  clusters_to_graph delaunay c b locations (skipn i cluster) = clusters_to_graph delaunay c 0 locations (skipn (i + j) cluster).
Proof.
  intros E. unfold clusters_to_graph. rewrite E. replace (after_burn_in 0 (skipn (i + j) cluster)) with (skipn j (skipn i cluster)); auto.
  unfold after_burn_in. rewrite Qmult_0_r. cbn. assert (S : forall k (l : list (list bool)), skipn j (skipn k l) = skipn (k + j) l).
  { intros k. induction k as [|k IH]; intros [|x l]; simpl; auto. apply skipn_nil. }
  rewrite S. reflexivity.
Qed.
Theorem C79_samples_partial : forall delaunay c b locations clusters n, clusters <> [] -> same_samples n clusters -> (0 <= b)%Q -> (b <= 1)%Q ->
  exists i j, i + j <= n /\ rounded_down b n i /\ rounded_up b (n - i) j /\
    map_graphs delaunay c b locations clusters = all_opt (map (clusters_to_graph delaunay c 0 locations) (map (skipn (i + j)) clusters)).
Proof.
  intros delaunay c b locations clusters n Hne Hs H0 H1. destruct (@drop_skip b n clusters Hne Hs H0 H1) as (i & Hi & Hr & E).
  destruct (@ceil_index b (n - i) H0 H1) as (j & Ej & Hj & Rj). exists i, j. conj; auto; [lia|].
  unfold map_graphs. rewrite E, !map_map. f_equal. apply map_ext_in. intros cl Hcl. apply graph_shift.
  unfold after_burn_in. rewrite skipn_length. unfold same_samples in Hs. rewrite Forall_forall in Hs. rewrite (Hs cl Hcl), Ej. apply slice_nat.
Qed.
Print Assumptions C79_samples_partial.
(** So the samples are not those after the configured burn-in, however it is rounded: with 5 samples and 20%, two
    samples are dropped. *)
Theorem C79_samples_refuted : exists clusters b n, clusters <> [] /\ same_samples n clusters /\ exclusive clusters /\ (0 <= b)%Q /\ (b <= 1)%Q /\
  forall i, rounded_down b n i \/ rounded_up b n i ->
    map_graphs join_all Density b [(0, 0); (1, 0)]%Q clusters <> all_opt (map (clusters_to_graph join_all Density 0 [(0, 0); (1, 0)]%Q) (map (skipn i) clusters)).
Proof.
  exists [[[false; false]; [true; true]; [false; false]; [false; false]; [false; false]]], (1 # 5)%Q, 5. conj.
  - discriminate.
  - repeat constructor.
  - intros c c' t o A B. unfold is_in in *. destruct c as [|[|c]]; [|destruct t, o; discriminate A..]. destruct c' as [|[|c']]; [reflexivity|destruct t, o; discriminate B..].
  - vm_compute; congruence.
  - vm_compute; congruence.
  - intros i H. assert (i = 1).
    { assert (E : ((1 # 5) * inject_Z (Z.of_nat 5) == 1)%Q) by reflexivity. unfold rounded_down, rounded_up in H. rewrite E in H.
      destruct H as [[A B]|[A B]].
      - assert (C : (inject_Z (Z.of_nat i) <= inject_Z 1)%Q) by exact A. assert (D : (inject_Z 1 < inject_Z (Z.of_nat i + 1))%Q) by (rewrite inject_Z_plus; exact B).
        rewrite <- Zle_Qle in C. rewrite <- Zlt_Qlt in D. lia.
      - assert (C : (inject_Z 1 <= inject_Z (Z.of_nat i))%Q) by exact A. assert (D : (inject_Z (Z.of_nat i - 1) < inject_Z 1)%Q) by (unfold Z.sub; rewrite inject_Z_plus; exact B).
        rewrite <- Zle_Qle in C. rewrite <- Zlt_Qlt in D. lia. }
    subst i. vm_compute. discriminate.
Qed.
Print Assumptions C79_samples_refuted.

(** With a threshold above one half, no object is on the map in two clusters; with one half (the default) this fails. *)
Theorem C79_one_cluster : forall delaunay t b locations clusters n gs, same_samples n clusters -> exclusive clusters -> (0 <= b)%Q -> (b <= 1)%Q -> (1 # 2 < t)%Q ->
  map_graphs delaunay (Consensus t) b locations clusters = Some gs ->
  forall c c' g g' l l' o, nth_error gs c = Some (g, l) -> nth_error gs c' = Some (g', l') -> nth o g false = true -> nth o g' false = true -> c = c'.
Proof.
  intros delaunay t b locations clusters n gs Hs He H0 H1 Ht H c c' g g' l l' o Hc Hc' Ho Ho'.
  destruct clusters as [|c0 r]; [injection H as <-; destruct c; discriminate|].
  destruct (@C79_samples_partial delaunay (Consensus t) b locations (c0 :: r) n) as (i & j & _ & _ & _ & E); auto; [discriminate|].
  rewrite E in H. set (ks := map (skipn (i + j)) (c0 :: r)) in *.
  assert (At : forall c g l, nth_error gs c = Some (g, l) -> exists x, nth_error ks c = Some x /\ clusters_to_graph delaunay (Consensus t) 0 locations x = Some (g, l)).
  { clear - H. revert gs H. generalize ks as ls. induction ls as [|x xs IH]; intros gs H c g l Hc; simpl in H.
    - injection H as <-. destruct c; discriminate.
    - destruct (clusters_to_graph delaunay (Consensus t) 0 locations x) as [y|] eqn:Ex; [|discriminate].
      destruct (all_opt (map (clusters_to_graph delaunay (Consensus t) 0 locations) xs)) as [ys|] eqn:Er; [|discriminate].
      injection H as <-. destruct c as [|c]; simpl in Hc.
      + injection Hc as ->. exists x. auto.
      + destruct (IH ys eq_refl c g l Hc) as (z & Hz & Ez). exists z. auto. }
  destruct (At c g l Hc) as (x & Hx & Gx). destruct (At c' g' l' Hc') as (y & Hy & Gy).
  destruct (graph_member Gx Ho) as [Nx Fx]. destruct (graph_member Gy Ho') as [Ny Fy].
  destruct (Nat.eq_dec c c') as [|N]; auto. exfalso.
  pose proof (@two_clusters (n - (i + j)) o ks c c' x y (same_skipn (i + j) Hs) (@exclusive_skipn (i + j) _ He) Hx Hy N Nx). lra.
Qed.
Print Assumptions C79_one_cluster.
Definition demo_clusters : list bmat :=
  [[[true; true; false]; [true; true; false]; [false; false; true]]; [[false; false; true]; [false; false; true]; [true; true; false]]].
Lemma demo_exclusive : exclusive demo_clusters.
Proof.
  intros c c' t o A B. unfold is_in, has in *.
  destruct c as [|[|c]]; destruct c' as [|[|c']]; auto; exfalso; destruct t as [|[|[|t]]]; destruct o as [|[|[|o]]]; cbn in A, B;
  try discriminate; try (destruct c; try destruct t; try destruct o; discriminate); try (destruct c'; try destruct t; try destruct o; discriminate);
  try (destruct t; try destruct o; discriminate); destruct o; discriminate.
Qed.
Example C79_one_cluster_case : same_samples 3 demo_clusters /\ exclusive demo_clusters /\
  exists gs, map_graphs join_all (Consensus (6 # 10)) 0 [(0, 0); (1, 0); (0, 1)]%Q demo_clusters = Some gs /\ map fst gs = [[true; true; false]; [false; false; true]].
Proof. conj; [repeat constructor|apply demo_exclusive|]. eexists. split; [vm_compute; reflexivity|reflexivity]. Qed.
Theorem C79_half_refuted : exists clusters gs, same_samples 3 clusters /\ exclusive clusters /\
  map_graphs join_all (Consensus (1 # 2)) (2 # 10) [(0, 0); (1, 0); (0, 1)]%Q clusters = Some gs /\
  exists g g' l l' o, nth_error gs 0 = Some (g, l) /\ nth_error gs 1 = Some (g', l') /\ nth o g false = true /\ nth o g' false = true.
Proof.
  exists demo_clusters. eexists. conj; [repeat constructor|apply demo_exclusive|vm_compute; reflexivity|].
  eexists. eexists. eexists. eexists. exists 0. conj; reflexivity.
Qed.
Print Assumptions C79_half_refuted.
