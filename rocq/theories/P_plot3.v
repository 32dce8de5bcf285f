(** Property C83: the table of the objects and the labels on a map. *)
From Coq Require Import Permutation Sorted Lqa.
From Verif Require Import M_plot2 S_plot S_plot2 L_plot L_table P_plot.
Close Scope Q_scope.
Open Scope nat_scope.

(** The table has the fewest rows which hold all entries in [n_col] pairs of columns; read by columns, the pairs of cells are the
    entries in their order (number of the object from 1, its name, both in the colour of the entry), then empty cells. *)
Theorem C83_cells : forall n_col sites, 0 < n_col -> sites <> [] -> exists rows n_row,
  correspondence n_col sites = Some rows /\ length rows = n_row /\ length sites <= n_col * n_row /\ (forall m, length sites <= n_col * m -> n_row <= m) /\
  forall r, r < n_row -> length (nth r rows []) = 2 * n_col /\ forall c, c < n_col ->
    (nth (2 * c) (nth r rows []) Empty, nth (2 * c + 1) (nth r rows []) Empty) =
    match nth_error sites (c * n_row + r) with Some (o, name, k) => (Number (o + 1) k, Name name k) | None => (Empty, Empty) end.
Proof.
  intros n_col sites Hc Hs. eexists. exists (ceil_div (length sites) n_col). conj.
  - apply correspondence_rows; auto.
  - rewrite map_length, seq_length. reflexivity.
  - apply ceil_enough; auto.
  - intros m Hm. apply ceil_least; auto.
  - set (n_row := ceil_div (length sites) n_col). intros r Hr.
    set (row := fun r => flat_map (full_entry n_row sites r) (seq 0 n_col)).
    assert (E : nth r (map row (seq 0 n_row)) [] = row r).
    { rewrite (nth_indep _ [] (row 0)) by (rewrite map_length, seq_length; auto). rewrite map_nth, seq_nth by auto. reflexivity. }
    rewrite E. unfold row. clear E row.
    assert (G : forall n a, length (flat_map (full_entry n_row sites r) (seq a n)) = 2 * n /\ forall c, c < n ->
      (nth (2 * c) (flat_map (full_entry n_row sites r) (seq a n)) Empty, nth (2 * c + 1) (flat_map (full_entry n_row sites r) (seq a n)) Empty) =
      match nth_error sites ((a + c) * n_row + r) with Some (o, name, k) => (Number (o + 1) k, Name name k) | None => (Empty, Empty) end).
    { clear. induction n as [|n IH]; intros a; [split; [reflexivity|lia]|]. cbn [seq flat_map]. destruct (IH (S a)) as [IL IN].
      assert (S2 : exists x y, full_entry n_row sites r a = [x; y] /\ (x, y) = match nth_error sites (a * n_row + r) with Some (o, name, k) => (Number (o + 1) k, Name name k) | None => (Empty, Empty) end).
      { unfold full_entry. destruct (nth_error sites (a * n_row + r)) as [((o & name) & k)|]; eauto. }
      destruct S2 as (x & y & -> & E). split; [cbn [app length]; lia|]. intros [|c] L.
      - rewrite Nat.add_0_r. exact E.
      - replace (2 * S c) with (S (S (2 * c))) by lia. replace (S (S (2 * c)) + 1) with (S (S (2 * c + 1))) by lia. cbn [app nth]. rewrite IN by lia.
        replace (S a + c) with (a + S c) by lia. reflexivity. }
    destruct (G n_col 0) as [GL GN]. split; auto.
Qed.
Print Assumptions C83_cells.
Example C83_cells_case : correspondence 2 [(0, s_ "A", Some 0); (3, s_ "B", Some 1); (4, s_ "C", None)] =
  Some [[Number 1 (Some 0); Name (s_ "A") (Some 0); Number 5 None; Name (s_ "C") None]; [Number 4 (Some 1); Name (s_ "B") (Some 1); Empty; Empty]].
Proof. vm_compute. reflexivity. Qed.

(** The entries: every object with the colour of each cluster that has it (if requested, the others in black); in the order of
    the objects and each only once, if no object is in two clusters. *)
Theorem C83_entries : forall show_all names labels,
  (forall o name k, In (o, name, k) (table_sites show_all names labels) <->
     nth_error names o = Some name /\ match k with Some c => In o (nth c labels []) | None => show_all = true /\ forall c, ~ In o (nth c labels []) end) /\
  (disjoint labels -> StronglySorted lt (map (fun s => fst (fst s)) (table_sites show_all names labels))).
Proof. intros show_all names labels. split; [intros o name k; apply sites_in|apply sites_sorted]. Qed.
Print Assumptions C83_entries.

(** The numbers on a consensus map are those of the table, with the same colours, if the same objects are requested. *)
Lemma labels_fold t labels i : forall js acc, fold_left (fun '(colour, found) j => if existsb (Nat.eqb i) (nth j labels []) then (match Consensus t with Consensus _ => Some j | Density => colour end, true) else (colour, found)) js acc =
  match filter (fun c => existsb (Nat.eqb i) (nth c labels [])) js with [] => acc | c :: cs => (Some (last (c :: cs) 0), true) end.
Proof.
  induction js as [|j js IH]; intros (colour & found); [reflexivity|]. cbn [fold_left filter]. destruct (existsb (Nat.eqb i) (nth j labels [])) eqn:E.
  - rewrite IH. destruct (filter _ js) as [|c cs]; [reflexivity|]. f_equal.
  - apply IH.
Qed.
Theorem C83_labels : forall show_all t names labels, disjoint labels ->
  map (fun s => (fst (fst s) + 1, snd s)) (table_sites show_all names labels) = map_labels (negb show_all) (Consensus t) (length names) labels.
Proof.
  intros show_all t names labels Hd. unfold table_sites, map_labels. rewrite !flat_map_concat_map, concat_map, map_map. f_equal.
  assert (M : forall A B C (F : A * B -> C) (G : A -> C), (forall a x, F (a, x) = G a) -> forall l l', length l = length l' -> map F (combine l l') = map G l).
  { clear. intros A B C F G H. induction l as [|a l IH]; intros [|x l'] E; try discriminate; auto. cbn [combine map]. rewrite H, IH by (simpl in E; lia). reflexivity. }
  apply M; [|apply seq_length]. clear M. intros a x.
  rewrite (labels_fold t). fold (clusters_with labels a). destruct (clusters_with labels a) as [|c cs] eqn:E.
  - destruct show_all; reflexivity.
  - assert (cs = []).
    { destruct cs as [|c' cs]; auto. exfalso. assert (c = c') by (apply (Hd a c c'); apply clusters_with_in; rewrite E; simpl; auto).
      subst c'. assert (N : NoDup (clusters_with labels a)) by (apply NoDup_filter, seq_NoDup). rewrite E in N. inversion N as [|? ? N1 N2]. apply N1. left. reflexivity. }
    subst cs. destruct show_all; reflexivity.
Qed.
Print Assumptions C83_labels.

(** On a consensus map with a threshold above one half the clusters are disjoint (C79), so all this applies: a table is drawn if
    there is an object in a cluster, and it has every object of a cluster once. *)
Theorem C83_map : forall delaunay t b locations clusters n gs, same_samples n clusters -> exclusive clusters -> (0 <= b)%Q -> (b <= 1)%Q -> (1 # 2 < t)%Q ->
  map_graphs delaunay (Consensus t) b locations clusters = Some gs ->
  forall show_all n_col names, length names = length locations -> 0 < n_col ->
  let labels := labels_of (length names) gs in
  disjoint labels /\
  ((exists o c, In o (nth c labels [])) -> exists rows, map_table show_all n_col (Consensus t) names labels = Some (Some rows) /\
     correspondence n_col (table_sites show_all names labels) = Some rows) /\
  ((forall o c, ~ In o (nth c labels [])) -> map_table show_all n_col (Consensus t) names labels = Some None).
Proof.
  intros delaunay t b locations clusters n gs Hs He H0 H1 Ht H show_all n_col names Hl Hc labels.
  assert (Lin : forall o c, In o (nth c labels []) -> o < length names /\ exists g l, nth_error gs c = Some (g, l) /\ nth o g false = true).
  { intros o c Hin. unfold labels, labels_of in Hin. destruct (nth_error gs c) as [(g & l)|] eqn:E.
    - assert (E' : nth_error (map (fun g => filter (fun o => nth o (fst g) false) (seq 0 (length names))) gs) c = Some (filter (fun o => nth o g false) (seq 0 (length names)))) by (rewrite nth_error_map, E; reflexivity).
      rewrite (nth_error_nth _ _ _ E') in Hin. apply filter_In in Hin as [Ho G]. apply in_seq in Ho. split; [lia|]. exists g, l. auto.
    - apply nth_error_None in E. rewrite nth_overflow in Hin by (rewrite map_length; auto). destruct Hin. }
  assert (Hd : disjoint labels).
  { intros o c c' A A'. apply Lin in A as (_ & g & l & Eg & Go). apply Lin in A' as (_ & g' & l' & Eg' & Go').
    exact (C79_one_cluster delaunay t b locations clusters n gs Hs He H0 H1 Ht H c c' g g' l l' o Eg Eg' Go Go'). }
  conj; auto.
  - intros (o & c & Hin). unfold map_table. assert (Ex : existsb (fun l => negb (length l =? 0)) labels = true).
    { apply existsb_exists. exists (nth c labels []). split.
      - apply nth_In. destruct (Nat.lt_ge_cases c (length labels)); auto. rewrite nth_overflow in Hin by auto. destruct Hin.
      - destruct (nth c labels []); [destruct Hin|reflexivity]. }
    rewrite Ex. assert (Ho : exists name, nth_error names o = Some name).
    { destruct (nth_error names o) as [x|] eqn:E; eauto. apply nth_error_None in E. apply Lin in Hin as [Hin _]. lia. }
    destruct Ho as (name & Ho). assert (Hne : table_sites show_all names labels <> []).
    { intros E. assert (I : In (o, name, Some c) (table_sites show_all names labels)) by (apply sites_in; auto). rewrite E in I. destruct I. }
    rewrite (correspondence_rows Hc Hne). eexists. split; reflexivity.
  - intros Hno. unfold map_table. destruct (existsb (fun l => negb (length l =? 0)) labels) eqn:Ex; auto. apply existsb_exists in Ex as (l & Hin & El).
    destruct l as [|o l]; [discriminate|]. exfalso. apply (In_nth _ _ []) in Hin as (c & _ & Ec). apply (Hno o c). rewrite Ec. left. reflexivity.
Qed.
Print Assumptions C83_map.
Example C83_map_case : exists gs, map_graphs join_all (Consensus (6 # 10)) 0 [(0, 0); (1, 0); (0, 1)]%Q demo_clusters = Some gs /\
  map_table false 2 (Consensus (6 # 10)) [s_ "A"; s_ "B"; s_ "C"] (labels_of 3 gs) =
    Some (Some [[Number 1 (Some 0); Name (s_ "A") (Some 0); Number 3 (Some 1); Name (s_ "C") (Some 1)]; [Number 2 (Some 0); Name (s_ "B") (Some 0); Empty; Empty]]).
Proof. eexists. split; [vm_compute; reflexivity|vm_compute; reflexivity]. Qed.

(** With the default threshold of one half an object can be in the table twice, and the label on the map has only one of the
    colours. *)
Theorem C83_twice_refuted : exists clusters gs, same_samples 3 clusters /\ exclusive clusters /\
  map_graphs join_all (Consensus (1 # 2)) (2 # 10) [(0, 0); (1, 0); (0, 1)]%Q clusters = Some gs /\
  exists name sites, table_sites true [s_ "A"; s_ "B"; s_ "C"] (labels_of 3 gs) = (0, name, Some 0) :: (0, name, Some 1) :: sites /\
    In (1, Some 1) (map_labels false (Consensus (1 # 2)) 3 (labels_of 3 gs)) /\ ~ In (1, Some 0) (map_labels false (Consensus (1 # 2)) 3 (labels_of 3 gs)).
Proof.
  exists demo_clusters. eexists. conj; [repeat constructor|apply demo_exclusive|vm_compute; reflexivity|].
  eexists. eexists. conj; [reflexivity|vm_compute; auto|vm_compute; intuition discriminate].
Qed.
Print Assumptions C83_twice_refuted.
(** On a density map, whose labels are all black, the table lists all objects in the colour of the first cluster, although it
    is about all of them. *)
Theorem C83_density : forall show_all n_col names labels, 0 < n_col -> names <> [] -> exists sites rows,
  map_table show_all n_col Density names labels = Some (Some rows) /\ correspondence n_col sites = Some rows /\
  sites = map (fun e => (fst e, snd e, Some 0)) (combine (seq 0 (length names)) names) /\
  forall only number colour, In (number, colour) (map_labels only Density (length names) labels) -> colour = None.
Proof.
  intros show_all n_col names labels Hc Hn. assert (Hl : 0 < length names) by (destruct names; [congruence|simpl; lia]).
  assert (Es : table_sites show_all names [seq 0 (length names)] = map (fun e => (fst e, snd e, Some 0)) (combine (seq 0 (length names)) names)).
  { unfold table_sites. transitivity (flat_map (fun e : nat * str => [(fst e, snd e, Some 0)]) (combine (seq 0 (length names)) names)).
    - rewrite !flat_map_concat_map. f_equal. apply map_ext_in. intros (o & x) Hin. apply in_combine_l in Hin.
      cbn [length seq filter nth]. rewrite (proj2 (existsb_nat o (seq 0 (length names))) Hin). reflexivity.
    - clear. induction (combine (seq 0 (length names)) names) as [|e l IH]; [reflexivity|]. cbn [flat_map map app]. rewrite IH. reflexivity. }
  assert (Hne : table_sites show_all names [seq 0 (length names)] <> []) by (rewrite Es; destruct names; [congruence|discriminate]).
  exists (table_sites show_all names [seq 0 (length names)]). eexists. conj.
  - unfold map_table. cbn [existsb]. rewrite seq_length, (proj2 (Nat.eqb_neq (length names) 0)) by lia. cbn [negb orb].
    rewrite (correspondence_rows Hc Hne). reflexivity.
  - apply correspondence_rows; auto.
  - exact Es.
  - intros only num colour Hin. unfold map_labels in Hin. apply in_flat_map in Hin as (i & _ & Hin).
    assert (F : forall js acc, fst acc = None -> fst (fold_left (fun '(colour, found) j => if existsb (Nat.eqb i) (nth j labels []) then (match Density with Consensus _ => Some j | Density => colour end, true) else (colour, found)) js acc) = @None nat).
    { clear. induction js as [|j js IH]; intros (c & f) E; [exact E|]. cbn [fold_left]. destruct (existsb _ _); apply IH; exact E. }
    specialize (F (seq 0 (length labels)) (None, false) eq_refl).
    destruct (fold_left _ _ _) as (c & f) in F, Hin. cbn [fst] in F. subst c. destruct (only && negb f); [destruct Hin|]. destruct Hin as [Hin|[]]. congruence.
Qed.
Print Assumptions C83_density.
Theorem C83_density_refuted : exists names labels sites rows o name k, map_table true 2 Density names labels = Some (Some rows) /\ correspondence 2 sites = Some rows /\
  In (o, name, k) sites /\ ~ In (o + 1, k) (map_labels false Density (length names) labels).
Proof.
  exists [s_ "A"; s_ "B"], [[0; 1]; [0; 1]], [(0, s_ "A", Some 0); (1, s_ "B", Some 0)]. eexists. exists 1, (s_ "B"), (Some 0).
  conj; [vm_compute; reflexivity|reflexivity|simpl; auto|vm_compute; intuition discriminate].
Qed.
Print Assumptions C83_density_refuted.
